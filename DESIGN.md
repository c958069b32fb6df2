# Formal model of ebfull/halo in Rocq: design

Plan (written before the proofs; the trusted base and the final status of each
property are kept in the sections below and in MANIFEST.json).

## Architecture

* `theories/Model/*.v`  computable Gallina functions transcribing the Rust code,
  each definition citing file and lines. No proofs.
* `theories/Spec/*.v`   small independent specifications (modular arithmetic,
  affine group law, SHA-256 per FIPS 180-4, polynomial evaluation, satisfaction
  of a constraint system, ...).
* `theories/Proofs/*.v` lemmas.
* `theories/Properties/*.v` only the property theorems (`exact lemma`) with
  `Print Assumptions` and non-vacuity examples.

Machine integers are `Z` with the wrap written explicitly. Panics are `None`/error
values. Rust generics over `Field`/`Curve` become records of operations plus a
record of laws that both concrete instances are proved to satisfy. Circuits are
programs in a free monad over the four constraint-system calls, interpreted by
the synthesis driver and by the assignment semantics. Worker counts are
parameters.

## Per-property plan

* **C01 Field arithmetic is exact modular arithmetic.** Limb model (four u64 limbs as Z, explicit mod 2^64 / 2^128) parametrised by the constants record; prove value equations mod p and canonicity, instantiate at both constant sets by computation.
* **C02 Integer conversions into the field are exact.** Same limb model; from_u512 as two Montgomery products.
* **C03 Field element byte encoding is canonical and round-trips.** Byte lists as list Z; little-endian codec lemmas; the borrow chain of from_bytes is shown equal to 'value < modulus'.
* **C04 Exponentiation is exact in both variants.** Both loops as folds over the 256 exponent bits; equality with Z-power by induction.
* **C05 Inversion is total and exact.** Fermat's little theorem over Z (proved here) + primality (Pocklington certificates checked by vm_compute).
* **C06 Square roots: sound and complete.** The constant-time loop nest is modelled literally (v, k, j_less_than_v flags); invariant b = x^2/self has order dividing 2^(v-1); soundness from final check, completeness from the invariant.
* **C07 Batch inversion agrees with individual inversion.** Two list passes; induction on the list.
* **C08 Published field parameters are what they claim.** Pocklington criterion proved in Rocq, certificate chain found offline, checked by vm_compute.
* **C09 Low-128-bit extraction is exact.** Corollary of the Montgomery reduction theorem.
* **C10 Point addition and doubling compute the group law on all inputs.** Affine chord-and-tangent law as the separate specification; projective formulas proved equal by case analysis and field.
* **C11 Curve points form a commutative group.** Associativity of the affine law proved by case analysis with field/nsatz.
* **C12 Scalar multiplication is a linear action of the scalar field.** Point-count argument: a generator of prime order r (checked by computation), at most 2q+1 points, no 2-torsion => every point is in the subgroup.
* **C13 Point equality is equality of points.** Expected refuted: ct_eq ignores the other operand's zero flag. Proved: exact characterisation + refutation.
* **C14 Point compression round-trips and rejects everything else.** Uses C06 and parity of negation.
* **C15 Affine coordinate import/export is exact.** Direct.
* **C16 The endomorphism multiplies by the scalar cube root of unity.** Checked on the generator by computation and lifted to all points by C12.
* **C17 Multi-exponentiation equals the naive sum.** multiexp modelled with the worker count as a parameter; chunk induction.
* **C18 Inner products are chunking independent.** Chunk induction, worker count parameter.
* **C19 FFT computes the discrete Fourier transform on any worker count.** serial_fft: decimation-in-time invariant; parallel_fft: twiddled sub-FFTs; worker count parameter.
* **C20 Polynomial multiplication is exact.** From C19 with the inverse DFT.
* **C21 Folded generator and evaluation formulas agree with explicit folding.** Induction on rounds.
* **C22 Challenge-to-scalar mapping agrees with the endomorphism ladder.** Induction on the 64 bit pairs.
* **C23 Commitments and openings use the same positions.** The original title (an opening quotient) did not describe the code; reworded. `commit` through C17, `compute_opening` by induction on the vector.
* **C24 Linear combinations evaluate as written.** Deep embedding of LCs, denotation function.
* **C25 Circuit synthesis allocates each wire once with its value.** Driver as a state machine over an abstract backend; invariants by induction over the call tree.
* **C26 is_satisfied reports satisfaction exactly.** Model of the Assignment backend; statement against an independent satisfaction predicate.
* **C27 determinism_check accepts exactly witness-independent constraint systems.** Trace comparison.
* **C28 Namespaces do not change the constraint system.** Namespace erasure and tree-count induction.
* **C29 Allocated bits are boolean.** Soundness over every assignment satisfying the emitted constraints, completeness for the honest run.
* **C30 Boolean operations with constants and negation are sound and complete.** Case analysis over operand shapes on top of C29.
* **C31 Bit decomposition represents the number, but is it unique?.** Soundness modulo p, completeness, and refutation of uniqueness.
* **C32 Allocated number operations are sound and complete.** As C29.
* **C33 32-bit words: rotations, shifts, xor, choice, majority and modular addition.** As C29 with bit-vector specification over N/Z.
* **C34 64-bit multiply-accumulate is exact.** As C33.
* **C35 The SHA-256 circuit computes SHA-256.** FIPS 180-4 written as an independent specification over Z words; refinement by induction over blocks/rounds.
* **C36 The Rescue permutation circuit and native code agree.** Circuit sponge vs native sponge, lock-step refinement.
* **C37 Sponge bookkeeping refines the mathematical duplex sponge.** State machine refinement to a list-based duplex.
* **C38 Every absorbed element influences later challenges.** Expected refuted (MDS column of zeros, rank one).
* **C39 Point gadgets: conditional negation and endomorphism.** Soundness for every satisfying assignment and completeness of the honest run, from C29-C32.
* **C40 Point gadgets: witnessing yields a curve point or the identity encoding.** Sound for flag 0; that flag 1 forces the coordinates (0, 0) is refuted.
* **C41 Point gadgets: incomplete addition fully constrains its output.** Completeness; soundness is refuted by exhibiting satisfying assignments with any output (the output coordinates are never constrained).
* **C42 Point gadgets: complete addition computes the sum.** Completeness, soundness of the identity flag for distinct inputs; the full soundness is refuted (the coordinate constraints are commented out in the code).
* **C43 Point gadgets: doubling and double-and-add compute the group operations.** Soundness and completeness under the exact preconditions (the documented ones omit A + B = -A).
* **C44 In-circuit scalar multiplication agrees with the native one (honest prover).** Completeness by induction over the scalar bits.
* **C45 The s(X,Y) evaluators describe one polynomial.** Spec/SystemSpec.v lays a circuit out as gates and numbered linear constraints, independently of the driver; the two backends are proved to accumulate s(X, y) and s(x, Y) of that system (an invariant over the driver's calls), hence to agree.
* **C46 The polynomial identity captures satisfaction.** Laurent-coefficient computation on the code's own vectors (rx, the primed polynomial, the FFT product of C19): the constant coefficient is a polynomial in y whose coefficients are the errors of gates and constraints; a non-zero polynomial has few roots.
* **C47 Inner product argument completeness.** Invariant of the rounds (the prover's vectors open the verifier's commitments for the folded generators), induction over rounds, with the real Rescue transcript.
* **C48 Prover completeness.** Symbolic execution of the models of `Proof::new` and `Proof::verify` on the same transcript (Proofs/ProverP.v), composing C23, C45, C46 and C47; the statement quantifies over `can_prove` circuits and `honest_leftovers` (Spec/ProofSpec.v), with an induction for proofs in a row.
* **C49 Deferred values: dummies verify, and what verify checks.** The magic challenge has a square root in both fields (explicit root); `Deferred::verify` is reduced to one equation and six folds (Proofs/DeferredTop.v).
* **C50 (encodings of leftovers and deferred values).** Model: `leftovers_to_bytes`, `deferred_to_bytes` of Model/Proofs.v. Little-endian values are injective for a fixed length; the concatenations split by length; (0, 0) is not on the curve, so the identity's encoding is unique. Stronger reading (injective on all values) refuted.
* **C51 (helper gadgets of the recursive circuit).** Model: Model/Recursion.v. Soundness and completeness are proved together through a judgement with a mode (Proofs/ModeP.v); the transcript gadget reuses the generic lemmas of C36.
* **C53 Parameter generation yields valid generators.** Random bytes are an arbitrary stream per generator, the retry loop has fuel; induction over attempts, with the decoding theorem of C14.
* **C54 What Leftovers::verify checks.** Exact case analysis of the model with the laws of `==` (C13) and of commitments (C23).
* **C55 An accepted proof does not show that the circuit is satisfiable.** An explicit attacker's program (Spec/ForgerySpec.v, not part of /repo) is run symbolically like the prover in C48; the combined claim is true by the choice of one scalar, so completeness of the inner product argument (C47) makes the verifier accept.
* **C56 (what verification checks).** Model: `proof_verify`, `verify_proof` of Model/{Proofs,Opening}.v on arbitrary proofs. Specification (Spec/VerifySpec.v): the conversation as a list of items appended to the transcript, challenges as a relation, rounds as an inductive run, and the final equation per claim over curve points. Theorem: the code returns exactly the boolean of those equations and exactly those leftovers and deferred values. Proof: induction over rounds with the live-transcript invariant; multi-scalar multiplication exactness (C28). `C56_zero_opens_refuted`: an accepted opening alone says nothing about the committed polynomial.
* **C57 (deferred data in the circuit).** Model: `verify_deferred` of Model/Recursion.v. Specification: the layout of the bits (`encodes_deferred`), and `Deferred::verify` with signs. The circuit's product formula is compared with the native equation by field algebra; square roots are known up to sign, and flipping root i of the list flips the folded inner product.
* **C58 (the recursive circuit can be satisfied).** Model: `vc_synthesize` of Model/Recursion.v, every gadget of the circuit. Specification: Spec/RecursiveCircuitSpec.v (`verified_exactly`: the transcript, the five claims and the equations, as in C56 but without the point-at-infinity exception). The judgement `complete` composes over the gadgets (Proofs/VerifierGadgetP.v to VerifierStepP.v); the values are followed as group elements. The prover's completeness proof (C48) is strengthened to give equality in each claim.
* **C59 (the recursive circuit is satisfied only by a proof that verifies).** Model: as C58. Specification: `circuit_accepts` and `satisfied_only_if` in Spec/RecursiveCircuitSpec.v. The same lemmas as for C58, stated for a judgement with a mode (Proofs/HonP.v, `hon`): in one mode every check is assumed and the run is shown to satisfy its constraints, in the other the constraints are assumed and every check is derived. Not covered: assignments other than those the closures compute (the curve gadgets are then unsound, C41 and C42; C73 is an attack).
* **C60 (the recursive circuit's system does not depend on its values).** Model: Model/Recursion.v and all gadgets below it, laid out by the modelled constraint-system drivers (Model/System.v). Specification: Spec/UniformSpec.v (`alike`: two circuits make the same calls with the same variables and linear combinations, possibly other values; `uniform`, `shaped`, `starts_well`, `public_bits`) and Spec/SystemSpec.v (`laid_out`, `same_system`, `satisfied`). Proof: `alike` is a congruence (Proofs/AlikeP.v), shown gadget by gadget (Proofs/AlikeGadgetsP.v, AlikeEccP.v, AlikeRecursionP.v); alike circuits are laid out as the same system (Proofs/AlikeLayoutP.v); the public inputs are read off the end of the circuit (Proofs/RecursiveSystemP.v).
* **C61 (chains of recursive proofs are made and accepted).** Model: Model/RecursiveProof.v (`create_proof`, `verify_inner`, `verify`) on top of the prover, verifier and circuit models. Specification: Spec/ChainSpec.v (`ready`, `can_start`, `can_continue`, `history`). Proof: Proofs/ChainP.v, an invariant of the proofs of a history (`ripe`: honest leftovers on both curves, verifying deferred data, challenges below 2^128, exact verification), from C48, C49, C58 and C60.
* **C62 (the recursive circuit's size is linear in k, and the recursion fits from k = 22).** Model: the circuit code of Model/ as it is (no separate cost model). Specification: Spec/SizeSpec.v (`taken`, `lines`, `adds_at_most`, over the reference layout of Spec/SystemSpec.v). Proof: Proofs/CostP.v (a judgement `uses p Q` on results, wires and constraints; gadgets and the Rescue sponge with a potential for absorbed values), Proofs/CostEccP.v, Proofs/CostRecursionP.v; the prover's circuit by C60. Example parameters of every size: Proofs/WideGensP.v. These also give the example of C61 (`C61_nonvacuous`: application and parameters of size 22 that are ready, can start and can always continue).
* **C63 (small applications run; examples/paper.rs).** Model/Paper.v models examples/paper.rs (`MyCircuit`, `main`; timing and printing left out). `C63_ready` puts C58, C60 and C62 together: for applications within the bounds the hypotheses `ready` of C61 hold. `C63_paper` follows the program: parameters (C53), then the five proofs with C61.
* **C64 (what RecursiveProof::verify checks).** Spec/AcceptSpec.v says what must be true of the parts of a recursive proof; the theorem composes the exact theorems C56 (Proof::verify), C54 (Leftovers::verify) and C49 (Deferred::verify) along `verify_inner` and `verify`, and shows that what Proof::verify returns can always be checked.
* **C65 (what the Bitcoin header circuit forces).** Model/Bitcoin.v models examples/bitcoin.rs; Spec/BitcoinSpec.v states Bitcoin's rules for headers and, separately, the weaker relation `circuit_step`. Proofs/BitcoinP.v composes the soundness theorems of the gadgets (C33-C35).
* **C66 (when an honest prover can prove a Bitcoin block).** Proofs/BitcoinHonestP.v: completeness by composition of the gadgets' completeness theorems; for the converse, a program logic for honest runs (`hsound`) shows that the constraint on the target's value fails if a byte of the mantissa is not a palindrome. Spec/BitcoinRunSpec.v (`honestly_provable`) lists the exact conditions; Proofs/BitcoinExactP.v adds the remaining necessity (`C66_exact`) and follows the run alone for the panics (`C66_runs`).
* **C67 (the Bitcoin example runs to its end).** Proofs/AlikeShaP.v and AlikeBitcoinP.v: two runs of the circuit for different payloads have the same constraints (`uniform has_target`). Proofs/CostBitcoinP.v bounds its size. Then C60-C64 (Properties/ChainProps.v, PaperProps.v) apply; Properties/BitcoinMainProps.v does the induction over the list of blocks and checks the ten real headers by evaluation. `C67_asserted` (and `C63_asserted` for examples/paper.rs) is the converse: a program that ended has had every proof accepted (`all_verified` in Spec/BitcoinRunSpec.v).
* **C68 (exactly which blocks the Bitcoin circuit accepts from a dishonest prover).** Proofs/BitcoinForgeP.v: the circuit is rewritten with the dishonest prover's witnesses; it makes the same calls (`alike`) as the original, so that a satisfying assignment of one satisfies the other. Properties/BitcoinForgeProps.v combines this with C65.
* **C69 (recursive_is_satisfied agrees with what create_proof can prove).** Model/DevRecursive.v. Spec/DevSpec.v (`tidy`: names and namespaces). Proofs/TidyP.v (every gadget, the recursive circuit and the Bitcoin circuit are tidy), Proofs/DevRecursiveP.v (a tidy circuit that is complete for every assignment is `well_behaved`, so that C26's `C26_is_satisfied_honest` applies; the circuit's inputs are the bits the helper passes; conversely the application's run is the last part of the circuit's run).
* **C70 (constraint_count reports the size that decides which parameters are large enough).** Model/DevRecursive.v (`recursive_constraint_count`). Proofs/CountLayoutP.v: the counting backend and the reference layout of Spec/SystemSpec.v proceed in step, in both directions; Proofs/DevRecursiveP.v for the recursive circuit (names by Proofs/TidyP.v, independence of the payload by C60).
* **C71 (the inner product argument proves what it claims).** Specification: Spec/ExtractSpec.v (provers as trees of messages with four challenges per round, their conversations, what is computed from their answers) with the equations of Spec/RecursiveCircuitSpec.v (`claim_holds`) and C56. Proof: Proofs/ExtractP.v by induction on the rounds: from three challenges the polynomial with P = <p, G> and the polynomials of L and R are interpolated; the fourth either gives a relation between the generators or shows that the answers are the folds of p. Proofs/ExtractHonestP.v: the honest prover meets the hypotheses.
* **C72 (a proof shows that the circuit is satisfied).** Specification: Spec/SoundnessSpec.v (provers as trees over the challenges y, x, y_new, z and the rounds; what one conversation has to pass; what is computed). Proof: Proofs/SoundLinearP.v separates the seven polynomials combined by the powers of z; Proofs/SoundP.v computes them from the procedure of C71 and compares the polynomials found in different conversations (two polynomials for one commitment give a relation; one c for 4n values of y_new fixes s(x, y)); Proofs/SoundAlgebraP.v: the equation at 10n-1 points x gives the constant coefficient, the equation of the constant coefficients at more than 2n+Q points y gives every gate and every linear constraint; Proofs/SoundTopP.v connects with the layout of the circuit. Proofs/SoundHonestP.v: the honest prover meets the hypotheses.
* **C73 (a dishonest prover needs no old proof).** Specification: Spec/CheatSpec.v (the recursive circuit with given sums in place of those the closures of CurvePoint::add compute, in the chain for p_commitment), Spec/AttackSpec.v (the attacker's program and what it needs). Proof: Proofs/FakeP.v (a proof without a witness verifies for leftovers whose s_new_commitment is chosen after the challenges); Proofs/CheatStepP.v (with two dishonest sums the circuit is satisfied with the dummy leftovers instead), on the lemmas of C58 generalised to other sums (Proofs/EccAddP.v, Proofs/VerifierStepP.v); Proofs/AlikeRecursionP.v, Proofs/RecursiveSystemP.v and Proofs/ChainP.v, also generalised: the constraint system stays the same, so the proof made with it is accepted by the verifier of the honest circuit; Proofs/AttackP.v puts these together.
* **C74 (the Bitcoin example's verifier accepts any height and chain work).** Model: Model/Bitcoin.v. Specification: `linked` and `work_value` in Spec/BitcoinChainSpec.v, Spec/BitcoinSpec.v, Spec/AttackSpec.v. Proof: the fields of `pack_payload_bytes` are read back, so the step is a provable block (C66), and C73 applies; C67 for the concrete parameters and headers.
* **C75 (a recursive proof shows its last step).** Model: Model/Recursion.v. Specification: `accepts_step` in Spec/LastStepSpec.v (the application's circuit runs to its end on allocated bits with the payload's values, and the constraints it emits hold). Proof: the laid-out system contains the constraints of every execution of the circuit's parts (Proofs/LastStepP.v); the bits of the new payload are the first public inputs, those of the old payload are boolean by their own constraints; C72 for the extraction and C65 for the Bitcoin example.
* **C76 (commitments are binding and linear).** Model: Model/Params.v (`commit`), Model/Opening.v. Specification: `placed`, `difference`, `mixture`, `convinces` in Spec/BindingSpec.v, `relation` in Spec/ExtractSpec.v. Proof: a commitment represents the sum of multiples of the generators with the placed coefficients (C23), sums are additive in the coefficients (Proofs/BindingP.v), and a multiple by a scalar is zero for the zero scalar; for two openings, the extractor of C71 gives two lists of coefficients with one commitment, which differ because their values do.
* **C77 (proofs do not depend on the machine).** Model: Model/{Threads,Util,Params,Opening,Proofs,RecursiveProof}.v. Specification: Spec/MachineSpec.v (results that are the same up to the coordinates that represent their points). Proof: two runs are executed side by side (Proofs/MachineP.v; for the verifier on two representations of a proof, Proofs/SamePointsP.v): a multi-exponentiation gives the same point (C17), products of polynomials and the collapse of generators are equal (C20, C21), sums and multiples of the same points are the same, and the transcript only takes affine coordinates, so that all challenges are equal; the recursive circuit takes the leftovers as bytes.

## Trusted base

* Coq 8.16.1's kernel (and its `vm_compute`; `coqchk`, which has no virtual machine, rechecks every module).
* `Print Assumptions` is run for every property theorem in `theories/Properties/*.v`. No axiom is declared in this development. The theorems list either "Closed under the global context" or only axioms of the standard library's primitive 63-bit integers: the primitive type and operations `Coq.Numbers.Cyclic.Int63.PrimInt63.*` (`int`, `add`, `sub`, `mul`, `div`, `mod`, `eqb`, `ltb`, `leb`, `compare`, `land`, `lor`, `lxor`, `lsl`, `lsr`, `addc`, `addcarryc`, `subc`, `subcarryc`, `mulc`, `diveucl`, `diveucl_21`, `addmuldiv`, `head0`, `tail0`, and the signed ones) and their specifications `Coq.Numbers.Cyclic.Int63.Uint63.*_spec` (`of_to_Z`, `add_spec`, `sub_spec`, `mul_spec`, `mulc_spec`, `div_spec`, `mod_spec`, `lsl_spec`, `lsr_spec`, `land_spec`, `lor_spec`, `lxor_spec`, `eqb_correct`, `eqb_refl`, `ltb_spec`, `leb_spec`, `addc_def_spec`, `addcarryc_def_spec`, `subc_def_spec`, `subcarryc_def_spec`, `compare_def_spec`, `diveucl_def_spec`, `diveucl_21_spec`, `addmuldiv_def_spec`, `head0_spec`, `tail0_spec`). They enter through the fast arithmetic of `Lib/Fast63.v` used to check the primality certificates, the group orders and the round constants.
* `coqchk` also reports the module parameters `Coq.ssr.ssrunder.Under_rel.*` (abstract, part of the standard library's ssreflect support); no theorem here depends on them.
* The transcription of the Rust code into `theories/Model/*.v`. It was made by hand from the source text; each definition cites its lines.

### What is modelled, and how

* `src/fields/fp.rs`, `fq.rs`, `mod.rs`: limb arithmetic, Montgomery reduction, encodings, square roots, inversion, batch inversion. 64-bit words are `Z` with explicit wrapping.
* `src/curves/*.rs`: both curves, all methods used in the library (constant-time `select` is a plain conditional).
* `src/util.rs`: multi-exponentiation, FFT (serial and parallel), polynomial multiplication, folding, challenges. Threads are a `Machine`: any number of processors and any interleaving of the workers; theorems quantify over it. The natural logarithm in `multiexp` is any function (`ln_ceil`).
* `src/circuits.rs`, `src/synthesis.rs`, `src/dev.rs`: linear combinations, the `Basic` driver, `is_satisfied`, `determinism_check`, `constraint_count`, `recursive_is_satisfied`, `recursive_constraint_count`, namespaces, as a free monad of constraint-system calls. Closures that compute witness values are values of type `res F`; they are assumed pure.
* `src/gadgets/*.rs`: booleans, numbers, 32- and 64-bit words, SHA-256, Rescue, curve points. `multieq.rs` is dead code in this revision (never called) and is not modelled.
* `src/rescue.rs`: the sponge, the round constants as literals.
* `src/proofs.rs`: parameters, commitments, the evaluators of s, the multi-opening argument, `Proof::new` and `Proof::verify`, leftovers and deferred values. Random numbers are arbitrary streams. Loops that retry until a challenge is usable have fuel (`Running`).
* `src/recursion.rs`: the verification circuit with all its gadgets (Model/Recursion.v) and `RecursiveProof::create_proof`/`verify` (Model/RecursiveProof.v). The two curves of the cycle are arguments whose fields are equal by an explicit cast. The user's inner circuit is an arbitrary program.
* `examples/paper.rs`, `examples/bitcoin.rs`: the circuits and `main` (Model/Paper.v, Model/Bitcoin.v), without timing and printing. The 256-bit integers of the `bigint` crate are `Z` with panics on overflow.
* Arithmetic overflow panics (debug build), as do failed assertions, `unwrap`s and out-of-range indexing: `None`, `Panicked` or `Panic`.
* Not modelled: memory, `Debug`/`Display` output, timing and constant-time behaviour, `std` and `crossbeam` themselves, the operating system's randomness, serde-like traits, progress printing.
