{"id": "C01", "title": "Field arithmetic is exact modular arithmetic", "statement": "For the two exported field types Fp and Fq, adding, subtracting, negating, doubling, multiplying and squaring elements yields exactly the element whose integer value is the corresponding result modulo the published modulus, and the result is always again a fully reduced element (no operation ever leaks an unreduced representation).", "quantifier": "every pair of field elements of either field, and every finite sequence of operations on them", "why_tests_cant": "there are about 2^508 operand pairs and the carry/borrow chains only misbehave on rare limb patterns; vectors sample a vanishing fraction", "anchors": ["src/fields/fp.rs: add, sub, neg, double, mul, square, montgomery_reduce", "src/fields/fq.rs: same symbols", "src/util.rs: adc, sbb, mac"]}
{"id": "C02", "title": "Integer conversions into the field are exact", "statement": "Building an element from a bool, a u64, a 256-bit raw integer (from_raw) or 64 uniformly random bytes (from_bytes_wide) yields the element equal to that integer modulo the modulus.", "quantifier": "every bool, u64, four-limb integer, and 64-byte string", "why_tests_cant": "the wide reduction has 2^512 inputs; an off-by-one reduction shows only near multiples of the modulus", "anchors": ["src/fields/fp.rs: From<bool>, From<u64>, from_raw, from_bytes_wide, from_u512", "src/fields/fq.rs: same symbols"]}
{"id": "C03", "title": "Field element byte encoding is canonical and round-trips", "statement": "to_bytes produces the 32-byte little-endian encoding of the unique integer in [0, modulus); from_bytes inverts it; from_bytes accepts a 32-byte string if and only if its little-endian integer is below the modulus (so no element has two accepted encodings).", "quantifier": "every field element and every 32-byte string, both fields", "why_tests_cant": "malleability shows only for the 2^256 - p non-canonical strings; tests pick one or two", "anchors": ["src/fields/fp.rs: to_bytes, from_bytes", "src/fields/fq.rs: to_bytes, from_bytes"]}
{"id": "C04", "title": "Exponentiation is exact in both variants", "statement": "pow and pow_vartime return the same element for the same base and exponent, and it equals the base multiplied by itself exponent-many times.", "quantifier": "every element and every 256-bit exponent", "why_tests_cant": "2^510 inputs; a wrong bit order or a dropped limb shows only for some exponents", "anchors": ["src/fields/mod.rs: Field::pow, Field::pow_vartime"]}
{"id": "C05", "title": "Inversion is total and exact", "statement": "invert returns nothing for zero and otherwise returns the unique element whose product with the input is one.", "quantifier": "every element of both fields", "why_tests_cant": "the addition chain/exponent is fixed, but exactness for all inputs depends on the modulus being prime, which no finite set of vectors shows", "anchors": ["src/fields/fp.rs: invert", "src/fields/fq.rs: invert"]}
{"id": "C06", "title": "Square roots: sound and complete", "statement": "sqrt returns a value exactly when the input is a square in the field, and any value it returns squares to the input; it never claims a root of a non-square.", "quantifier": "every element of both fields (2-adicity 32, constant-time Tonelli-Shanks)", "why_tests_cant": "half of all inputs are non-residues and the inner loop has 32 nested adaptive stages; sampling cannot cover all 2-power orders", "anchors": ["src/fields/fp.rs: sqrt", "src/fields/fq.rs: sqrt"]}
{"id": "C07", "title": "Batch inversion agrees with individual inversion", "statement": "batch_invert over any iterator of mutable elements replaces each non-zero element with its inverse, leaves zeros untouched, and returns the inverse of the product of the non-zero elements.", "quantifier": "every list of elements of any length, with zeros in any positions", "why_tests_cant": "all lengths and zero patterns", "anchors": ["src/fields/mod.rs: Field::batch_invert"]}
{"id": "C08", "title": "Published field parameters are what they claim", "statement": "Both moduli are prime; the root of unity has multiplicative order exactly 2^32; BETA is a primitive cube root of one; raising to RESCUE_ALPHA and RESCUE_INVALPHA are mutually inverse bijections of the field; the published modulus digits are those of the modulus minus one / modulus as documented.", "quantifier": "every field element (bijection), every candidate divisor (primality)", "why_tests_cant": "primality and 'order exactly' are statements about all divisors; bijectivity is about all 2^254 elements", "anchors": ["src/fields/fp.rs: MODULUS, ROOT_OF_UNITY, BETA, RESCUE_ALPHA, RESCUE_INVALPHA", "src/fields/fq.rs: same symbols", "src/fields/mod.rs: Field"]}
{"id": "C09", "title": "Low-128-bit extraction is exact", "statement": "get_lower_128 returns the canonical integer value of the element modulo 2^128.", "quantifier": "every element of both fields", "why_tests_cant": "2^254 inputs", "anchors": ["src/fields/fp.rs: get_lower_128", "src/fields/fq.rs: get_lower_128"]}
{"id": "C10", "title": "Point addition and doubling compute the group law on all inputs", "statement": "For any two valid curve points (including identity, equal points, and mutually inverse points, in any projective representation), + and double() return a valid projective point that represents their chord-and-tangent sum.", "quantifier": "every pair of points on either curve in every projective representation", "why_tests_cant": "exceptional cases are exactly where incomplete formulas break; they have measure zero under random testing", "anchors": ["src/curves/ec0.rs: Add, double, Neg, Sub", "src/curves/ec1.rs: Add, double, Neg, Sub"]}
{"id": "C11", "title": "Curve points form a commutative group", "statement": "Under +, unary - and zero(), valid points satisfy associativity, commutativity, identity and inverse laws (as represented points).", "quantifier": "every triple of valid points, both curves", "why_tests_cant": "three arbitrary points of a 2^254-order group", "anchors": ["src/curves/ec0.rs: Add, Neg, Sub, zero", "src/curves/ec1.rs: Add, Neg, Sub, zero"]}
{"id": "C12", "title": "Scalar multiplication is a linear action of the scalar field", "statement": "P * s is the s-fold sum of P; P*(a+b) = P*a + P*b, P*(a*b) = (P*a)*b for scalars a,b of the curve's declared scalar field, (P+Q)*a = P*a+Q*a; in particular every valid point multiplied by the scalar modulus is the identity.", "quantifier": "every valid point and every scalar field element, both curves", "why_tests_cant": "needs the exact group order of the curve, a statement about all points", "anchors": ["src/curves/ec0.rs: Mul<&Scalar>", "src/curves/ec1.rs: Mul<&Scalar>"]}
{"id": "C13", "title": "What point equality decides", "statement": "== between two valid points (any projective representations) returns true exactly when the left operand is the identity or the two are the same point of the curve. For a left operand that is not the identity it is therefore exact equality; as an equality test of arbitrary points it is wrong: zero() == P holds for every P and is not symmetric (stated and proved as a refutation).", "quantifier": "every pair of valid projective points", "why_tests_cant": "all representations and the identity in either position", "anchors": ["src/curves/ec0.rs: ConstantTimeEq, PartialEq", "src/curves/ec1.rs: ConstantTimeEq, PartialEq"]}
{"id": "C14", "title": "Point compression round-trips and rejects everything else", "statement": "from_bytes(to_bytes(P)) is P for every valid point; from_bytes returns only points on the curve.", "quantifier": "every valid point, every 32-byte string, both curves", "why_tests_cant": "depends on parity handling and sqrt for all points", "anchors": ["src/curves/ec0.rs: from_bytes, to_bytes", "src/curves/ec1.rs: from_bytes, to_bytes"]}
{"id": "C15", "title": "Affine coordinate import/export is exact", "statement": "get_xy returns nothing exactly on the identity and otherwise the affine coordinates on the curve; from_xy accepts exactly the on-curve pairs plus the (0,0) convention for the identity; the two are inverse.", "quantifier": "every valid point; every pair of base field elements", "why_tests_cant": "2^508 pairs", "anchors": ["src/curves/ec0.rs: get_xy, from_xy", "src/curves/ec1.rs: get_xy, from_xy"]}
{"id": "C16", "title": "The endomorphism multiplies by the scalar cube root of unity", "statement": "Scaling the x coordinate of any valid point by the base field's BETA yields the point multiplied by the scalar field's BETA (or its conjugate, fixed once for the curve).", "quantifier": "every valid point, both curves", "why_tests_cant": "statement about all points; tests check a generator", "anchors": ["src/curves/ec0.rs", "src/curves/ec1.rs", "src/fields: BETA", "src/gadgets/ecc.rs: conditional_endo, multiply_endo"]}
{"id": "C17", "title": "Multi-exponentiation equals the naive sum", "statement": "multiexp(coeffs, bases) equals sum_i bases[i]*coeffs[i] for any length and regardless of how many CPUs split the work; it panics exactly when the lengths differ.", "quantifier": "all lists of scalars and points of equal length below 2^32, every number of processors, every schedule of the worker threads", "why_tests_cant": "window size and chunking depend on length and machine", "anchors": ["src/util.rs: multiexp"]}
{"id": "C18", "title": "Inner products", "statement": "compute_inner_product(a,b) is sum_i a_i*b_i; it panics exactly when lengths differ.", "quantifier": "all equal-length lists", "why_tests_cant": "all lengths", "anchors": ["src/util.rs: compute_inner_product"]}
{"id": "C19", "title": "FFT computes the discrete Fourier transform on any worker count", "statement": "best_fft leaves in the array the evaluations of the input polynomial at the powers of omega in natural order, independent of whether the serial or the parallel path ran and of the number of workers.", "quantifier": "all lengths 2^L with L < 32, all inputs, every primitive root of that order, every number of processors and schedule", "why_tests_cant": "schedule and machine dependent path selection", "anchors": ["src/util.rs: best_fft, serial_fft, parallel_fft"]}
{"id": "C20", "title": "Polynomial multiplication is exact", "statement": "multiply_polynomials(a,b) returns the coefficient list of the product polynomial (so its value at every point is the product of the values); it panics exactly when an input is empty or the product has more than 2^31 coefficients.", "quantifier": "all non-empty coefficient vectors (below the 2-adicity limit)", "why_tests_cant": "all degrees and coefficients", "anchors": ["src/util.rs: multiply_polynomials"]}
{"id": "C21", "title": "Folded generator and evaluation formulas agree with explicit folding", "statement": "compute_b(x, challenges, inverses) equals the value obtained by repeatedly folding the vector (1,x,x^2,...) with the same challenges, and compute_g_for_inner_product equals the repeated fold of the generators, for any number of rounds; parallel_generator_collapse performs one such fold in place, on any number of processors.", "quantifier": "every k, every challenge list, every x and generator list", "why_tests_cant": "all round counts and challenges", "anchors": ["src/util.rs: compute_b, compute_g_coeffs_for_inner_product, compute_g_for_inner_product, parallel_generator_collapse"]}
{"id": "C22", "title": "Challenge-to-scalar mapping agrees with the endomorphism ladder", "statement": "get_challenge_scalar maps a 128-bit challenge to the scalar whose action equals the conditional-endomorphism double-and-add ladder; two challenges that agree above bit 1 map to the same scalar.", "quantifier": "every 128-bit challenge", "why_tests_cant": "2^128 challenges", "anchors": ["src/util.rs: get_challenge_scalar"]}
{"id": "C23", "title": "Commitments and openings use the same positions", "statement": "Params::commit(v, right_edge) is the sum of v_i times generator (off+i), and Params::compute_opening(v, x, right_edge) is the sum of v_i x^(off+i), with the same offset off: 0, or generators.len() - v.len() for the right edge. So a commitment and an opening of the same vector are about the same polynomial. commit panics exactly when v is longer than the generators.", "quantifier": "every vector, generator list, point, edge, and every machine (number of cores and schedule)", "why_tests_cant": "all lengths, vectors and schedules", "anchors": ["src/proofs.rs: Params::commit, Params::compute_opening"]}
{"id": "C24", "title": "Linear combinations evaluate as written", "statement": "Every +,-,coefficient and nested combination operator on linear combinations, Num and Combination produces an object whose evaluation under any assignment is the corresponding field expression, including the special-cased Zero/One/NegativeOne coefficients.", "quantifier": "every expression tree over variables and every assignment", "why_tests_cant": "unbounded expression trees", "anchors": ["src/circuits.rs: LinearCombination, Coeff", "src/gadgets/num.rs: Num, Combination"]}
{"id": "C25", "title": "Circuit synthesis allocates each wire once with its value", "statement": "Running any circuit through the synthesis driver gives every alloc/multiply call fresh variables, preserves the multiplicative relation of each gate for supplied values, counts gates and constraints exactly, and registers the constant one and each public input with exactly one tagged constraint in order.", "quantifier": "every circuit, any interleaving of alloc, alloc_input, multiply and enforce_zero calls", "why_tests_cant": "unbounded call sequences; pairing of allocations into gates is history dependent", "anchors": ["src/synthesis.rs: Basic, Synthesizer"]}
{"id": "C26", "title": "is_satisfied reports satisfaction exactly", "statement": "dev::is_satisfied returns true exactly when the synthesised witness satisfies every multiplication gate and every linear constraint with the supplied public inputs, false otherwise, and an input-length error exactly when the number of inputs differs.", "quantifier": "every circuit and every input vector", "why_tests_cant": "unbounded circuits", "anchors": ["src/dev.rs: is_satisfied"]}
{"id": "C27", "title": "determinism_check accepts exactly when the witness run repeats the recorded run", "statement": "determinism_check succeeds exactly when the synthesis run without a witness and the run with one both succeed and every operation of the second run (allocation, public input, multiplication, linear constraint term by term) matches the operation of the first run at the same position. It does not notice a second run that stops early.", "quantifier": "every pair of synthesis traces", "why_tests_cant": "unbounded traces", "anchors": ["src/dev.rs: determinism_check"]}
{"id": "C28", "title": "Namespaces do not change the constraint system", "statement": "Wrapping any part of a circuit in namespaces never changes variables, constraints or witness; constraint counts reported per namespace add up to the totals.", "quantifier": "every circuit", "why_tests_cant": "unbounded nesting", "anchors": ["src/circuits.rs: Namespace", "src/dev.rs: constraint_count"]}
{"id": "C29", "title": "Allocated bits are boolean", "statement": "Any satisfying assignment gives an AllocatedBit the value 0 or 1; and/xor/nor/and_not outputs are the boolean function of their inputs; the honest witness always satisfies the constraints.", "quantifier": "every satisfying assignment of any enclosing constraint system; every honest input", "why_tests_cant": "soundness quantifies over all (malicious) assignments in a 254-bit field", "anchors": ["src/gadgets/boolean.rs: AllocatedBit"]}
{"id": "C30", "title": "Boolean operations with constants and negation are sound and complete", "statement": "xor, and, not, enforce_equal, sha256_ch and sha256_maj over every mixture of constants, allocated and negated bits compute the boolean function in every satisfying assignment, and honest witnesses satisfy.", "quantifier": "every combination of Boolean operands and every satisfying assignment", "why_tests_cant": "case explosion x all assignments", "anchors": ["src/gadgets/boolean.rs: Boolean"]}
{"id": "C31", "title": "Bit decomposition recomposes to the number modulo p, and nothing more", "statement": "unpack_fe yields 256 bits that in every satisfying assignment recompose to the number modulo the field modulus, and the honest bits are the canonical ones. Every 256-bit string congruent to the number is accepted, so for every number at least two different decompositions satisfy the constraints.", "quantifier": "every field element and every satisfying assignment", "why_tests_cant": "needs all adversarial assignments", "anchors": ["src/gadgets/boolean.rs: unpack_fe"]}
{"id": "C32", "title": "Allocated number operations are sound and complete", "statement": "mul, square, inversion, square root and the fifth-power gadgets force their outputs to the right value in every satisfying assignment (up to sign for sqrt) and honest witnesses satisfy.", "quantifier": "every satisfying assignment", "why_tests_cant": "all assignments", "anchors": ["src/gadgets/num.rs: AllocatedNum, Combination, constrain_pow_five"]}
{"id": "C33", "title": "32-bit words: rotations, shifts, xor, choice, majority and modular addition", "statement": "UInt32 operations compute the standard 32-bit functions in every satisfying assignment; addmany computes the sum modulo 2^32 for any accepted operand count; honest witnesses satisfy.", "quantifier": "every operand list of accepted length, mixtures of constants, every satisfying assignment", "why_tests_cant": "overflow into field wraparound must be excluded for all assignments", "anchors": ["src/gadgets/uint32.rs: UInt32"]}
{"id": "C34", "title": "64-bit multiply-accumulate is exact", "statement": "UInt64::mul_acc2 outputs low, high words with low + 2^64 high = a*b + c + d in every satisfying assignment; honest witnesses satisfy.", "quantifier": "all u64 operands and all satisfying assignments", "why_tests_cant": "2^256 operand tuples and adversarial wires", "anchors": ["src/gadgets/uint64.rs: UInt64"]}
{"id": "C35", "title": "The SHA-256 circuit computes SHA-256", "statement": "For any number of input bits that is a multiple of 8, the output bits of the circuit equal the FIPS 180-4 SHA-256 digest of the input bits in every satisfying assignment, and the honest witness satisfies.", "quantifier": "every message length and content; every satisfying assignment", "why_tests_cant": "unbounded messages x adversarial wires", "anchors": ["src/gadgets/sha256.rs: sha256, sha256_compression_function"]}
{"id": "C36", "title": "The Rescue permutation circuit and native code agree", "statement": "For any absorbed sequence and any number of squeezes, the in-circuit Rescue sponge output equals the native Rescue sponge output in every satisfying assignment, and honest witnesses satisfy.", "quantifier": "every sequence of absorb/squeeze operations, all field elements", "why_tests_cant": "unbounded histories", "anchors": ["src/rescue.rs: Rescue", "src/gadgets/rescue.rs: RescueGadget"]}
{"id": "C37", "title": "Sponge bookkeeping refines the mathematical duplex sponge", "statement": "Any history of absorb and squeeze calls behaves as a rate-12 duplex sponge: absorbing buffers up to the rate, squeezing first flushes with padding, outputs are consumed in order, and further squeezes permute again.", "quantifier": "every history of absorb/squeeze", "why_tests_cant": "unbounded histories", "anchors": ["src/rescue.rs: Rescue::absorb, Rescue::squeeze"]}
{"id": "C38", "title": "Exactly which absorbed elements the Rescue sponge ignores", "statement": "The element absorbed at a position that is a multiple of 12 since the last squeeze never influences any later output, because the linear layer multiplies slot 0 by zero; and all outputs of a block are determined by its first one. The expected claim, that every absorbed element influences later challenges, is false.", "quantifier": "every history of absorb/squeeze, every pair of values for the ignored element; every permuted state", "why_tests_cant": "a structural property of the linear layer", "anchors": ["src/rescue.rs: mds, rescue_f"]}
{"id": "C39", "title": "Point gadgets: conditional negation and endomorphism", "statement": "conditional_neg and conditional_endo map the represented point exactly as selected by the bit in every satisfying assignment.", "quantifier": "every valid point, every bit, every satisfying assignment", "why_tests_cant": "adversarial wires", "anchors": ["src/gadgets/ecc.rs: conditional_neg, conditional_endo"]}
{"id": "C40", "title": "Witnessed points are on the curve unless flagged as the identity", "statement": "In every assignment satisfying the constraints of CurvePoint::witness the identity flag is a bit, and when it is 0 the coordinates are those of a point on the curve; the honest prover can always witness any point. When the flag is 1 the coordinates are not constrained to (0,0): every pair of field elements satisfies the constraints.", "quantifier": "every satisfying assignment; for completeness every point", "why_tests_cant": "adversarial wires", "anchors": ["src/gadgets/ecc.rs: CurvePoint::witness"]}
{"id": "C41", "title": "Incomplete addition: honest sum, unconstrained output", "statement": "For an honest prover add_incomplete yields the sum of two points with distinct abscissas (or of two identities), and fails with DivisionByZero when a non-identity input has the abscissa of the other. Contrary to the comment 'this is fully constrained', for any two points with distinct abscissas and any pair (X,Y) of field elements there is a satisfying assignment whose output is (X,Y).", "quantifier": "every pair of points; every pair (X,Y)", "why_tests_cant": "adversarial wires", "anchors": ["src/gadgets/ecc.rs: add_incomplete"]}
{"id": "C42", "title": "Complete addition: honest sum for all pairs, output forced only in the identity cases", "statement": "For an honest prover add (and add_conditionally) yields the group sum of any two points, including identities, doublings and opposites. In every satisfying assignment the output is the sum when exactly one input is the identity. For two points with distinct abscissas every pair (X,Y) is the output of some satisfying assignment, and the sum of two identities may be flagged as finite.", "quantifier": "every pair of points, every satisfying assignment", "why_tests_cant": "adversarial wires", "anchors": ["src/gadgets/ecc.rs: add"]}
{"id": "C43", "title": "Point gadgets: doubling and double-and-add compute the group operations", "statement": "double forces its output to 2A for every point A; double_and_add_incomplete forces A+(A+B) and add_conditionally_incomplete forces A+B or A as selected whenever both inputs are finite and different; honest provers satisfy the constraints whenever moreover A != -B (and A+B != -A for double_and_add_incomplete, which its comment omits), or, for double_and_add_incomplete, both inputs are the identity.", "quantifier": "every satisfying assignment, all points meeting the precondition", "why_tests_cant": "adversarial wires", "anchors": ["src/gadgets/ecc.rs: double, double_and_add_incomplete, add_conditionally_incomplete"]}
{"id": "C44", "title": "In-circuit scalar multiplication agrees with the native one (honest prover)", "statement": "With honest witness generation, multiply yields [k]A for any bit string; multiply_fast yields [k]A for at least two bits with the top one set and k < r-1; multiply_endo yields the native product by the challenge's scalar; multiply_inv, multiply_inv_fast and multiply_inv_endo yield the D with [k]D = A (k invertible). All constraints are satisfied, for every point including the identity.", "quantifier": "every point and every scalar bit string meeting the stated conditions", "why_tests_cant": "all points and scalars", "anchors": ["src/gadgets/ecc.rs: multiply, multiply_endo, multiply_inv_endo, multiply_fast"]}
{"id": "C45", "title": "The s(X,Y) evaluators describe one polynomial", "statement": "For any circuit, the coefficients in X computed at y and the coefficients in Y computed at x are two views of the same bivariate polynomial: evaluating one at x equals evaluating the other at y.", "quantifier": "every circuit, all x,y", "why_tests_cant": "unbounded circuits", "anchors": ["src/proofs.rs: SxEval, SyEval, compute_sx, compute_sy"]}
{"id": "C46", "title": "The polynomial identity captures satisfaction", "statement": "For a circuit that fits the parameters, the constant coefficient of the prover's polynomial t(X,y) = r(X,1)(r(X,y) + s'(X,y)) equals y^n k(y) for every non-zero challenge y exactly when the assignment satisfies every gate, every linear constraint and the public inputs; an unsatisfying assignment passes for at most 2n+Q challenges; and Deferred's final equation, on true openings, holds exactly when that constant is y^n k(y).", "quantifier": "every circuit, assignment, and y", "why_tests_cant": "unbounded circuits", "anchors": ["src/proofs.rs: Proof::new"]}
{"id": "C47", "title": "Inner product argument completeness", "statement": "For true openings of committed polynomials (up to 2^32 coefficients), new_proof does not panic and verify_proof, started with the same transcript and claims, accepts its result and returns the same challenges, the same final generator (the generators folded with the challenges) and the same transcript. The only other outcomes are a prover that is still searching for a challenge with a square root, and a verifier that panics because the prover needed more than 256 attempts for one.", "quantifier": "every list of polynomials, points, edges, k from 1 to 32, generators, transcript and machine", "why_tests_cant": "all round counts and all challenges", "anchors": ["src/proofs.rs: MultiPolynomialOpening::new_proof, verify_proof"]}
{"id": "C48", "title": "Prover completeness", "statement": "For a circuit whose witness satisfies its constraints and fits the parameters, and for honest old leftovers, Proof::new returns a proof and honest new leftovers (or one of its searches for a challenge with a square root does not end), and Proof::verify with the same parameters, old leftovers and public inputs accepts it, returns those new leftovers and a deferred value that verifies; the verifier may be given any commitment to the inputs, and its circuit may have other closures. Proofs in a row, the first with the dummy leftovers, all verify with all their leftovers.", "quantifier": "every circuit, witness, good parameters (k <= 30), thread schedule of prover and verifier, honest old leftovers and commitment to the inputs; any number of proofs in a row", "why_tests_cant": "end-to-end over all circuits, sizes, transcripts and schedules", "anchors": ["src/proofs.rs: Proof::new, Proof::verify, Leftovers::verify, Deferred::verify"]}
{"id": "C49", "title": "Deferred values: dummies verify, and what verify checks", "statement": "Leftovers::dummy(params) is honest for every circuit and Leftovers::verify accepts it; Deferred::dummy(k) verifies for every k >= 2. Deferred::verify(k) returns true exactly if the equation between the openings holds for n = 2^(k-2) and every claimed inner product is the fold of the powers of its point with the challenges, and panics exactly if x or y_cur is zero, k < 2, a list of challenges is empty or a challenge has no square root.", "quantifier": "every k, parameters, circuit, schedule and deferred value", "why_tests_cant": "all k and all values", "anchors": ["src/proofs.rs: Deferred::dummy, Deferred::compute, Deferred::verify, Leftovers::dummy"]}
{"id": "C50", "title": "What the byte encodings of leftovers and deferred values determine", "statement": "The bytes that become public inputs of the recursive circuit have a length that depends only on the numbers of challenges (144 + 16k for leftovers, 448 + 32k for deferred values). Two leftovers with valid points have the same bytes exactly when their two points are the same and the lower 128 bits of y_new and of all challenges agree; two deferred values with equally many old challenges exactly when their twelve full scalars are equal and the lower 128 bits of x, the three y's and all challenges agree. So encodings of values whose challenges are below 2^128 (all challenges of the protocol) are unambiguous, and their bits are exactly the bit string the recursive circuit decodes. For larger values they are ambiguous: there are leftovers with different y_new and equal bytes.", "quantifier": "both curves, all leftovers with valid points, all deferred values over both fields, every number of challenges", "why_tests_cant": "Injectivity relates all pairs of values; a test compares a few encodings.", "anchors": ["src/proofs.rs: Leftovers::to_bytes, Deferred::to_bytes"]}
{"id": "C51", "title": "Helper gadgets of the recursive circuit are exact", "statement": "In the recursive verification circuit: the conditional equality checks (of numbers, of bit strings of any equal lengths) force equality in every satisfying assignment unless the base-case bit is 1, and are satisfiable by an honest prover whenever the bit is 1 or the values are equal. A scalar read from bits is the value of the bits modulo the field's modulus. The scalar derived from a 128-bit challenge and the folded powers b(x) are exactly those of the native functions. A challenge derived after absorbing any numbers has, for an honest prover, exactly the bits of the native challenge; in an arbitrary satisfying assignment its bits come from some 256-bit number congruent to the squeezed element modulo the modulus (the decomposition is not forced to be canonical).", "quantifier": "both fields, all bit strings and lists of any length, all satisfying assignments (soundness) and all honest assignments (completeness)", "why_tests_cant": "Soundness speaks about adversarial wire values, of which there are exponentially many; a test uses the honest ones.", "anchors": ["src/recursion.rs: equal_unless_base_case, num_equal_unless_base_case, obtain_scalar_from_bits, witness_bits_from_fe, get_challenge_scalar, get_challenge, compute_b"]}
{"id": "C52", "title": "Challenge scalars are injective and invertible", "statement": "get_challenge_scalar(a) = get_challenge_scalar(b) exactly when a and b agree on bits 2..127, and the scalar is never zero, so inverting a challenge never panics.", "quantifier": "all pairs of challenges, both target fields", "why_tests_cant": "2^128 challenges; a collision or a zero would be a rare event", "anchors": ["src/util.rs: get_challenge_scalar", "src/proofs.rs: challenge inversions"]}
{"id": "C53", "title": "Parameter generation yields valid generators", "statement": "Params::new(k) yields 2^k generators, all valid curve points other than the identity with z = 1 and with their recorded coordinates, d = 2^k and n = d/4; generator i is the first point its random stream encodes. It panics only if k <= 3 or if a stream produces 32 zero bytes (the encoding of the identity).", "quantifier": "every k and every stream of random bytes", "why_tests_cant": "all random streams", "anchors": ["src/proofs.rs: Params::new"]}
{"id": "C54", "title": "What Leftovers::verify checks", "statement": "Leftovers::verify panics for a wrong number of challenges or a challenge without a square root; otherwise it returns true exactly if the generators folded with the challenges are the point g_new and the commitment to s(X, y_new) is s_new_commitment, except that a computed point at infinity passes for every given point.", "quantifier": "every parameters, circuit, schedule and leftovers of curve points", "why_tests_cant": "all leftovers, including adversarial ones", "anchors": ["src/proofs.rs: Leftovers::verify", "src/curves.rs: PartialEq"]}
{"id": "C55", "title": "An accepted proof does not show that the circuit is satisfiable", "statement": "Without any witness, for every circuit that fits the parameters (even one that demands 1 = 0) and every list of public inputs of the right length, there are efficiently computable old leftovers and a proof such that Leftovers::verify accepts the old leftovers, Proof::verify accepts the proof for the inputs, the returned deferred value verifies and Leftovers::verify accepts the returned leftovers. The old leftovers have y_new = 0, for which the recomputed commitment is the point at infinity, and == lets that equal any s_new_commitment.", "quantifier": "every circuit, public inputs, parameters, schedules of attacker and verifier", "why_tests_cant": "a claim about all circuits and inputs, against an adaptive prover", "anchors": ["src/proofs.rs: Proof::verify", "src/proofs.rs: Leftovers::verify", "src/proofs.rs: Deferred::verify", "src/curves.rs: PartialEq"]}
{"id": "C56", "title": "What Proof::verify and the opening verifier check", "statement": "For an arbitrary well-formed proof (points on the curve, at least as many entries per round as claims, k rounds, old challenges that have square roots), arbitrary old leftovers, public inputs and an optional caller-provided commitment to the input polynomial: Proof::verify returns Ok with a boolean, new leftovers and deferred values (or panics, if no fork below 256 gives a challenge that is a square). All challenges are those obtained by hashing exactly: the commitment to the inputs, the proof's r and s_cur commitments, t commitments, c commitment, s_new commitment, the nine openings, then the rounds' messages, in this order. The boolean is true if and only if all five claims (the z-combination of seven commitments at x, r at x*y, c at the old y, c + z*K at the current y, c at the new y) satisfy the inner product equation for the transcript's challenges, and every field of the new leftovers and deferred values is the value the protocol prescribes. A commitment passed by the caller is used as given: it is not compared with the inputs. Acceptance of one opening does not show that the committed polynomial has the value: because l and r of a round are free scalars and the final g is not bound, the commitment to the zero polynomial opens to every value.", "quantifier": "all curves of the cycle, all machines (cpus, schedules), all circuits laid out without witness that fit the parameters, all inputs, all proofs and leftovers (not only honest ones), all points and values", "why_tests_cant": "Tests run the verifier on honest proofs and a few corruptions; which equation decides acceptance, for every possible malformed proof and every challenge, is not determined by finitely many runs.", "anchors": ["src/proofs.rs: Proof::verify", "src/proofs.rs: MultiPolynomialOpening::verify_proof", "src/util.rs: append_point, append_scalar, get_challenge"]}
{"id": "C57", "title": "The circuit's check of deferred data matches Deferred::verify up to signs", "statement": "The part of the recursive circuit that checks the deferred data of the previous proof, on public bits: every satisfying assignment makes these bits the encoding of one deferred value which Deferred::verify accepts after possibly negating the old claimed inner product, and possibly negating the five new ones together (the circuit only knows the square roots of the challenges up to sign). Conversely, for every encoded value that Deferred::verify accepts the honest prover satisfies all constraints and does not panic.", "quantifier": "both fields, k up to 64, all bit strings, all satisfying assignments", "why_tests_cant": "The claim is about all assignments to thousands of wires; tests only run honest proofs.", "anchors": ["src/recursion.rs: VerificationCircuit::verify_deferred, compute_b, get_challenge_scalar", "src/proofs.rs: Deferred::verify, Deferred::to_bytes"]}
{"id": "C58", "title": "The recursive circuit is satisfiable for every proof that verifies, and in the base case", "statement": "For every old recursive proof whose public inputs commit to K, which is accepted by the verification equations with K (each with equality), whose own deferred data verifies and whose payload step the application's circuit accepts: the recursive verification circuit, run with the witnesses create_proof passes to it, does not panic or fail and all its constraints hold. The same is true in the base case without an old proof, for any new leftovers and deferred data of the right lengths. What the equations accept Proof::verify accepts; and every proof that Proof::new returns satisfies them. The only conditions on the input are that none of the circuit's incomplete additions of input generators is exceptional, and that 128-bit values are below 2^128.", "quantifier": "both curves, all parameters with k up to 64, all proofs, leftovers, deferred values, payloads and application circuits, all assignments made of the witnesses", "why_tests_cant": "The crate's recursion test proves three fixed steps; a gadget that fails for some points, challenges, signs or fork values would make proving fail for some histories only.", "anchors": ["src/recursion.rs: VerificationCircuit, verify_proof, verify_inner_product, synthesize", "src/proofs.rs: Proof::verify, Proof::new"]}
{"id": "C59", "title": "With the witnesses the program computes, the recursive circuit is satisfied only by a proof that verifies", "statement": "For every old recursive proof of curve points, new leftovers, deferred data and fork values of the right form: if the recursive verification circuit is run with the witnesses create_proof computes and its constraints hold, then the deferred data of the old proof verifies (up to the signs of the claimed inner products), the application's circuit accepts the step, and either it is the base case and the old payload is the application's initial payload, or the verification equations hold for the old proof and the challenges, points and packed values in the new leftovers and in the new deferred data are those of the verification. Outside of the base case, with verified deferred data and an accepted step, the constraints hold exactly if the old proof is accepted.", "quantifier": "both curves, all parameters with k up to 64, all proofs, leftovers, deferred values, payloads, fork values and application circuits, all assignments made of the witnesses", "why_tests_cant": "A missing equality constraint in the circuit does not show in any test that proves correct steps; it shows only as a wrong step that is accepted, for some proof out of all possible ones.", "anchors": ["src/recursion.rs: VerificationCircuit, verify_proof, verify_inner_product, verify_deferred, synthesize"]}
{"id": "C60", "title": "The recursive circuit's system of constraints does not depend on its values", "statement": "Two recursive verification circuits for the same parameters, the same application circuit and payloads of the same length, whose data (if present) has the right lengths, are laid out as the same system: the same gates, linear constraints and public-input positions, whether the prover runs it with all its values or the verifier runs an empty one with none, provided the application's circuit makes the same calls for all bits of the old payload and for all new payloads in a set that contains those of the two circuits. A circuit whose constraints hold for its computed witnesses (C58) is laid out by the prover as a satisfied system. The public inputs of the prover's circuit are the constant one and then the bits of new payload, old leftovers, new leftovers and deferred data, in this order, in constraints 1, 2, 3, ...", "quantifier": "both curves, all parameters with k at least 2 and curve-point generators of which the second and third are not opposite, all old proofs, leftovers, deferred data, fork values, payloads and all application circuits that are uniform in their payload bits", "why_tests_cant": "Proving and verifying use two separate runs of the circuit, with and without values; a branch on a value changes the system only for particular values (a point, a challenge bit, the base case), and a test sees only the values it was written with.", "anchors": ["src/recursion.rs: VerificationCircuit::synthesize, create_proof, verify_inner", "src/gadgets: num.rs, boolean.rs, ecc.rs, rescue.rs, unpack.rs", "src/synthesis.rs: Basic"]}
{"id": "C61", "title": "Chains of recursive proofs are made and accepted", "statement": "Starting without an old proof and then continuing from each proof with the next, on the two curves in turn, for any number of steps: as long as the application's circuit accepts the steps, RecursiveProof::create_proof neither panics nor returns an error, but returns a proof (or searches on for a challenge that has a square root), and RecursiveProof::verify returns true for every proof made in this way. Conditions: parameters of equal size made of curve points, the application's circuit makes the same calls for all old payloads and for the new payloads of a set from which the payloads are taken, all payloads have the length of the initial one, the recursive circuit fits into the parameters, and no addition of the circuit's commitments to public input bits is exceptional.", "quantifier": "both orders of the curves, all parameters, application circuits, payloads, numbers of steps, machines (threads and schedules) for every single call", "why_tests_cant": "The crate's examples run a few steps with one application and one random set of parameters. Whether step n+1 can be proved depends on the values (points, challenges, fork values, signs) that all steps before it left behind.", "anchors": ["src/recursion.rs: RecursiveProof::create_proof, RecursiveProof::verify, verify_inner"]}
{"id": "C62", "title": "The recursive circuit's size grows linearly in the logarithm of the parameters, so that the recursion fits", "statement": "Whatever the parameters, the application and the payloads, the circuit that verifies a proof made with parameters of size 2^k has at most (461143 + 38922 k + 24 b + 18 i + w) / 2 gates and at most 472684 + 39387 k + 32 b + 19 i + l linear constraints, where b is the number of bytes of the payload, i the number of bits of the initial payload, and w and l bound the wires and constraints that the application's own circuit adds; this holds for the prover's circuit and for the verifier's empty one. Hence with Params::new(k) for k >= 22 (the examples use 22), n = 2^(k-2) and d = 2^k have room for the circuit that verifies proofs of the same size, with at least 700000 wires and 2000000 constraints left for the application.", "quantifier": "both curves, all parameters, sizes k, application circuits, payloads, with and without the prover's values", "why_tests_cant": "The program silently truncates the polynomial s(X, y) of a circuit with more than n gates, so a circuit that is too large is not reported; running the examples shows only that one application at one size fits.", "anchors": ["src/recursion.rs: VerificationCircuit::synthesize, verify_proof, verify_deferred", "src/gadgets/*.rs", "examples/paper.rs, examples/bitcoin.rs: Params::new(22)"]}
{"id": "C63", "title": "A small application of the recursion runs; the example program ends without a panic", "statement": "With parameters of one size k >= 22 made by Params::new for the two curves, the chain of recursive proofs of C61 can be started and continued for every application whose circuit asks for the same constraints whatever its values, has a base payload of eight bits per byte of payload, and adds at most 700000 wires and 2000000 constraints (less a fixed amount per byte of payload). In particular the program examples/paper.rs, which makes five proofs alternately on the two curves, each from the one before it, and verifies each, ends normally: no unwrap fails and every assertion holds, on any machine and for any random bytes, unless a search for a random point or for a challenge does not end, or an addition in the circuit's commitment to its public inputs is exceptional. Conversely, if the program ends normally then every proof was created and the verifier returned true for it.", "quantifier": "for all applications within the bounds, parameters, machines and schedules; for the program, all streams of random bytes", "why_tests_cant": "running the program takes minutes for one stream of random bytes and one schedule; a test says nothing about other random generators, other applications or other schedules", "anchors": ["examples/paper.rs: MyCircuit, main", "src/recursion.rs: RecursiveProof::create_proof, RecursiveProof::verify", "src/proofs.rs: Params::new"]}
{"id": "C64", "title": "What RecursiveProof::verify checks", "statement": "For an arbitrary recursive proof of the right shape (curve points, the right number of public inputs and rounds), made by anyone: RecursiveProof::verify computes the result of Proof::verify (C56) for the commitment to 1 and the bits of the payload, of both leftovers and of the deferred data. It panics if no fork below 256 gives a challenge, or if the carried leftovers of the second curve have a wrong number of challenges, or these or the carried deferred data contain a challenge without a square root, an empty list or a zero challenge. Otherwise it returns Ok(true) if and only if Proof::verify accepts, the carried deferred data verifies, the new deferred data verifies, the new leftovers on the first curve are true and the carried leftovers on the second curve are true (C54, with the exception for the point at infinity), and Ok(false) if one of these fails. All proofs made by create_proof in a history have this shape.", "quantifier": "for all proofs of the right shape, payloads, parameters, applications, machines and schedules", "why_tests_cant": "tests only verify honest proofs; that every single check is made for every other proof, and nothing else is, is a statement about all proofs", "anchors": ["src/recursion.rs: RecursiveProof::verify, RecursiveProof::verify_inner", "src/proofs.rs: Proof::verify, Leftovers::verify, Deferred::verify"]}
{"id": "C65", "title": "What the Bitcoin header circuit forces", "statement": "If the constraints of BitcoinHeaderCircuit::synthesize are satisfied by any assignment, whatever the hints, in which the wires of the old and new payload hold given bits, then: the payloads have at least 928 bits; the new height is the old height plus one; the previous-block hash in the new header equals the double SHA-256 of the old header modulo the field's order; the target's sign bit is 0 and its size is below 32; and there are a target, a work and a rest below 2^256 with (target with its lowest bit set) * work + rest = 2^256, where target * 256^3 = mantissa * start^32 * 256^size modulo the field's order for some field element start of the prover's choice, and the new chain work is the old chain work plus the work modulo the field's order. This is an extension of the chain by Bitcoin's rules (work = 2^256 / (target + 1)) only if in addition start = 1, the target, the hashes and the sums are below the field's order, the rest is at most the target and the size is at least 4; none of which the circuit checks. It does not check either that the new block's hash is below its target.", "quantifier": "for all fields with the field laws, payload bits, hints and satisfying assignments", "why_tests_cant": "the example runs honest blocks only; which steps a malicious prover can show is a statement about all satisfying assignments", "anchors": ["examples/bitcoin.rs: BitcoinHeaderCircuit::synthesize, CompactBits::unpack, enforce_equality, sha256d, mul_acc"]}
{"id": "C66", "title": "When an honest prover can prove a Bitcoin block", "statement": "Let the wires of both payloads and their hints hold blocks such that the new one extends the old one by Bitcoin's rules, with a mantissa that is not zero. If each of the three bytes of the mantissa reads the same in both bit directions, BitcoinHeaderCircuit::synthesize succeeds and the honest values satisfy all its constraints. If one does not, honest values never satisfy the constraints: the code computes the value of the target's bytes with the bits of each byte reversed. In particular an honest prover cannot prove the blocks with nBits 1d00d86a (Bitcoin's second difficulty, from block 32256 on). More exactly: an honest prover's values satisfy the circuit if and only if both payloads have 928 bits, the height is one more, the hash of the old header is the new header's previous hash modulo p, the target is not negative, has a size from 4 to 31, a mantissa that is not zero and whose bytes are palindromic, and the chain work grows by the block's work modulo p; and with known payloads the circuit ends without a panic only if the size is from 4 to 32 and the mantissa is not zero.", "quantifier": "for all fields with the field laws, blocks and payload wires", "why_tests_cant": "the example uses ten blocks which all have the mantissa 00ffff, for which the mistake is invisible; whether other blocks can be proved is a statement about all headers", "anchors": ["examples/bitcoin.rs: BitcoinHeaderCircuit::synthesize, CompactBits::unpack, CompactBits::from_header"]}
{"id": "C67", "title": "The Bitcoin example runs to its end, for chains of any length", "statement": "The loop of examples/bitcoin.rs, given parameters of size at least 22 made by Params::new and any list of blocks after the genesis block, of any length, in which each block extends the one before it by Bitcoin's rules and has a non-zero mantissa whose bytes are palindromes, creates and verifies a recursive proof for every block, alternating between the curves: no unwrap fails, no assertion fails and nothing panics, unless the search for a challenge fails. The ten real blocks of the program are such a list, so main of examples/bitcoin.rs ends normally, unless random points or a challenge are not found within the given number of tries. The theorems assume that no addition in the commitments to the input bits is exceptional. To this end the Bitcoin circuit is shown to have the same constraints for all payloads with a target, and to be small enough for parameters of size 22. Conversely, if the program ends normally then every proof was created and the verifier returned true for it.", "quantifier": "for all chains of blocks of any length, random bytes, machines (rayon schedules, numbers of threads), and parameters that Params::new makes", "why_tests_cant": "the example needs hours per run and is not a test; it runs ten fixed blocks, one schedule and one random seed", "anchors": ["examples/bitcoin.rs: main, BitcoinHeaderCircuit", "src/recursion.rs: RecursiveProof::create_proof, RecursiveProof::verify", "src/lib.rs: Params::new"]}
{"id": "C68", "title": "Exactly which blocks the Bitcoin circuit accepts from a dishonest prover", "statement": "Run BitcoinHeaderCircuit::synthesize as the verifier does: the old payload's values are unknown and the new payload is known and has a target (size from 4 to 31, non-zero mantissa; otherwise the verifier's run panics). There is an assignment that satisfies all constraints with the payloads' wires holding given bits if and only if both payloads have at least 928 bits, the new height is the old one plus one, the previous-block hash in the new header equals the double SHA-256 of the old header modulo the field's order, and the sign bit of the target is 0. So the chain work of the new payload is not restricted at all: the chain work of any accepted payload can be replaced by any 256 bits. The expected property (an accepted payload extends the chain) is false, for example for Bitcoin's block 1 with the chain work 2^256 - 1.", "quantifier": "for all fields with the field laws, old payloads, new payloads with a target, chain works", "why_tests_cant": "tests can only run an honest prover; that a dishonest one has a satisfying assignment for every payload is a statement about all payloads and needs witnesses the code never computes", "anchors": ["examples/bitcoin.rs: BitcoinHeaderCircuit::synthesize, CompactBits::unpack"]}
{"id": "C69", "title": "recursive_is_satisfied agrees with what create_proof can prove", "statement": "dev::recursive_is_satisfied, which tries a recursive step without making a proof, returns true for every step that RecursiveProof::create_proof is expected to prove: the first step, and every further step from any proof of a history (the conditions of C61), provided the application's circuit puts no '/' in its annotations and names of namespaces and closes the namespaces it opens (otherwise the helper panics). Conversely, for any parameters and any old proof, when it returns true the application's circuit did run successfully on the old proof's payload (the initial payload without an old proof) and the new payload, and the values it computed satisfy all its constraints. If the old proof cannot be processed, the error is returned as a synthesis error. For the Bitcoin example a true answer implies payloads of at least 116 bytes that are a step of its circuit, with a target that the honest prover can handle.", "quantifier": "for all parameters, applications, payloads, machines, old proofs and histories of any length, on both cycles of curves", "why_tests_cant": "the recursive circuit has millions of gates, and histories and applications are unbounded; a test can run a few steps of one application", "anchors": ["src/dev.rs: recursive_is_satisfied, is_satisfied", "src/recursion.rs: RecursiveProof::create_proof, verify_inner, VerificationCircuit::synthesize"]}
{"id": "C70", "title": "constraint_count reports the size that decides which parameters are large enough", "statement": "dev::constraint_count reports, for the root of a circuit, exactly the number of multiplication gates and of linear constraints of the system that the prover and the verifier use for it. For the recursive circuit, dev::recursive_constraint_count with one payload returns counts that do not depend on the payload (among payloads of the same length that the application does not refuse), that are the sizes of every system a proof is made for, and that decide whether parameters are large enough: the recursion's circuit fits in parameters with n gates and d constraints if and only if the reported counts are below n and d. The circuit must use no '/' in its names and close the namespaces it opens.", "quantifier": "for all circuits, applications, parameters and payloads, on both cycles of curves", "why_tests_cant": "the claim relates two interpreters of arbitrary circuits and ranges over all payloads and parameter sizes", "anchors": ["src/dev.rs: constraint_count, recursive_constraint_count", "src/synthesis.rs: Basic", "src/recursion.rs: VerificationCircuit"]}
{"id": "C71", "title": "The inner product argument proves what it claims (special soundness)", "statement": "There is one procedure which, given only scalars (the challenges and the final scalars a of a prover that is rewound so that it answers four different challenges in every round), computes for every claim either the coefficients of a polynomial or a list of factors, such that: whatever the generators, the claimed commitments, points and values and the messages, if all these conversations satisfy the opening verifier's equations and their final generators are the fold of the generators (the part that Leftovers::verify checks), then either the claimed commitment is the commitment to the computed polynomial and the claimed value is its value at the claimed point, or the computed factors are not all zero and give a sum of multiples of the generators that is the point at infinity. The same holds for arguments accepted by the opening verifier, if the left side of its equation between points is not the point at infinity (the verifier accepts that case without checking, see C56).", "quantifier": "for both curves, all numbers of rounds, generators, lists of claims, and all provers (trees of messages and answers)", "why_tests_cant": "the claim is about all provers, including dishonest ones, and unbounded numbers of rounds", "anchors": ["src/proofs.rs: MultiPolynomialOpening::verify_proof, Leftovers::verify", "src/util.rs: get_challenge_scalar, compute_b, compute_g_for_inner_product"]}
{"id": "C72", "title": "A proof shows that the circuit is satisfied (special soundness of the whole proof system, with exact comparison of points)", "statement": "There is one procedure which, given only the circuit, the public inputs and scalars (the challenges, the openings and the final scalars of a prover that is rewound so that it answers more than 2n+Q values of the first challenge y, for each of them at least 10n-1 values of x, for each of them at least 4n values of y_new, for each of them seven values of z, and four challenges in every round of the inner product argument; n multiplication gates and Q linear constraints), computes either values for all wires or a list of factors, such that: whatever the generators, the old leftovers and the commitments that the prover sends, if every one of these conversations passes the checks of the verifier with equality (the five openings, the check of the new leftovers, the deferred equation), then either the computed values satisfy every multiplication gate and every linear constraint of the circuit with the given public inputs, or the computed factors are not all zero and give a sum of multiples of the generators that is the point at infinity. (The code also accepts a point at infinity on one side of its comparisons; C55 shows that this breaks soundness.) Nothing is assumed about the old leftovers. A proof accepted with equality by Proof::verify, with new leftovers that are honest and a deferred value accepted by Deferred::verify, is such a conversation.", "quantifier": "for both curves, all parameters, circuits, public inputs, old leftovers, and all provers (trees of messages and answers)", "why_tests_cant": "the claim is about all provers, including dishonest ones, for all circuits; a test can only try particular forgeries", "anchors": ["src/proofs.rs: Proof::verify, Leftovers::verify, Deferred::verify, MultiPolynomialOpening::verify_proof, Params::compute_sx", "src/synthesis.rs", "src/util.rs: get_challenge_scalar"]}
{"id": "C73", "title": "An accepted recursive proof does not show a history: a dishonest prover needs no proof of the payload it continues from", "statement": "Whenever the parameters and the application are such that honest recursive proofs work (C61), the following program of an attacker, given any two payloads such that the application accepts the step from the first to the second, and no proof of the first, returns a recursive proof for the second payload that RecursiveProof::verify accepts on every machine; or one of its searches for a challenge with a square root did not end; provided only that no addition in the commitment to the public inputs of the missing proof is exceptional. The attacker uses the dummy leftovers and dummy deferred data, a proof that is made without a witness, and the constraint system of the crate's own circuit, with other values than the honest ones for the results of two of the point additions in the circuit (their result is not constrained). Other users can continue with create_proof from such a proof, and the results are accepted. In particular, for an application that never lets the payload change, a proof for a payload other than the initial one is accepted.", "quantifier": "for both cycles of curves, all parameters and applications as in C61, all machines, and all pairs of payloads whose step the application accepts", "why_tests_cant": "the claim is that verification gives no guarantee about earlier steps for any application; it needs a dishonest prover whose witness the tests never build, and acceptance for all payloads and machines", "anchors": ["src/recursion.rs: RecursiveProof::verify, RecursiveProof::verify_inner, VerificationCircuit::synthesize", "src/gadgets/ecc.rs: CurvePoint::add, CurvePoint::multiply_endo", "src/proofs.rs: Proof::verify, Leftovers::dummy, Deferred::dummy"]}
{"id": "C74", "title": "The Bitcoin example's verifier can be made to accept any height and any chain work", "statement": "Let the recursion be ready for the Bitcoin circuit (C67). For any two headers of 80 bytes such that the second contains the double SHA-256 of the first as its previous block, both with a target of size 4 to 31 and non-zero mantissa, the second with a non-negative target whose mantissa bytes are palindromic (as every provable block, C66), any height below 2^32 - 1 and any chain work, the attacker's program of C73 returns a recursive proof that RecursiveProof::verify accepts on every machine for the payload with the second header, the next height and that chain work plus the work of the second header; or its search for a challenge did not end; provided no addition in the commitment to the public inputs of the missing proof is exceptional. Neither header needs to be on Bitcoin's chain, and their hashes need not be below the targets. In particular, headers 1 and 2 of Bitcoin's chain are accepted as blocks 999999 and 1000000 of a chain with a work of more than 2^255.", "quantifier": "for both cycles of curves, all parameters for which honest proofs of the Bitcoin circuit work, all heights, chain works, linked headers and machines", "why_tests_cant": "the program's own test proves ten honest blocks; that the proof gives no guarantee about the chain is a statement about dishonest provers and all payloads", "anchors": ["examples/bitcoin.rs: BitcoinHeaderCircuit, pack_payload_bytes", "src/recursion.rs: RecursiveProof::verify", "src/gadgets/ecc.rs: CurvePoint::add"]}
{"id": "C75", "title": "A recursive proof does show its last step", "statement": "Values of the wires that satisfy the recursive circuit's system of constraints, for public inputs that begin with the bits of a payload, satisfy the application's circuit for that payload and for some old payload of the length of base_payload. By the extractor of C72, such values, or else a non-trivial linear relation between the generators, are computed from a prover that convinces a verifier (who compares points exactly) for enough challenges. For the Bitcoin example: there is an old payload whose height is one less and whose header's double SHA-256 is the new header's previous hash (modulo the field's order), and the new header's target is not negative; by C74 nothing more follows.", "quantifier": "for both cycles of curves, all applications, parameters, payloads, remaining public inputs and values of the wires", "why_tests_cant": "it is a statement about all values of the wires, including those of dishonest provers, and about every application", "anchors": ["src/recursion.rs: VerificationCircuit::synthesize, RecursiveProof::verify", "examples/bitcoin.rs: BitcoinHeaderCircuit"]}
{"id": "C76", "title": "Commitments are binding and linear", "statement": "Two commitments made with the same parameters are the same point if and only if they are commitments to the same coefficients (placed at the edge that was asked for), or the difference of the coefficients is a non-trivial relation between the generators (a sum of multiples of them that is the point at infinity). A commitment to s v + t w is s times the commitment to v plus t times the commitment to w. And from two provers that convince the verifier of two different values, at one point, of the polynomial behind one commitment, such a relation is computed (from the challenges and final scalars alone).", "quantifier": "for both curves, all parameters with valid generators, all lists of coefficients, both edges, all scalars, all machines, and all provers (rewound with four challenges per round)", "why_tests_cant": "binding is a statement about all pairs of coefficients and all provers, with no way of enumerating them", "anchors": ["src/proofs.rs: Params::commit, MultiPolynomialOpening::verify_proof", "src/util.rs: multiexp"]}
{"id": "C77", "title": "Proofs do not depend on the machine", "statement": "Proof::new, RecursiveProof::create_proof and RecursiveProof::verify do not depend on the number of processors, on the scheduling of the threads or on the rounding of the logarithm that chooses window sizes: two runs on the same arguments end alike (with a proof, with the same error, with a panic, or with a search that has not ended after the same number of tries), and the proofs have the same scalars and the same points (only the coordinates that represent the points may differ). The result of verification is the same, also for two proofs that differ only in the coordinates that represent their points; so the proofs made from the same inputs on two machines get the same answer from every verifier on every machine.", "quantifier": "for both curves and both cycles, all machines (number of processors, schedules), all parameters with valid generators, all circuits (satisfied or not, also those whose synthesis fails), leftovers and payloads, and all old proofs whose leftover points are points of the curve", "why_tests_cant": "the schedules and numbers of processors cannot be enumerated, and a dependence would show only for particular lengths", "anchors": ["src/proofs.rs: Proof::new, Proof::verify, Leftovers::verify, Leftovers::dummy, MultiPolynomialOpening::new_proof, MultiPolynomialOpening::verify_proof", "src/recursion.rs: RecursiveProof::create_proof, RecursiveProof::verify", "src/util.rs: multiexp, parallel_generator_collapse, multiply_polynomials"]}
