{
 "claims": [
  {
   "property": "C01",
   "status": "proved",
   "theorems": [
    "C01_representation_bijective",
    "C01_field_arithmetic"
   ],
   "note": ""
  },
  {
   "property": "C02",
   "status": "proved",
   "theorems": [
    "C02_integer_conversions"
   ],
   "note": ""
  },
  {
   "property": "C03",
   "status": "proved",
   "theorems": [
    "C03_byte_encoding"
   ],
   "note": ""
  },
  {
   "property": "C04",
   "status": "proved",
   "theorems": [
    "C04_exponentiation"
   ],
   "note": ""
  },
  {
   "property": "C05",
   "status": "proved",
   "theorems": [
    "C05_inversion"
   ],
   "note": ""
  },
  {
   "property": "C06",
   "status": "proved",
   "theorems": [
    "C06_square_root"
   ],
   "note": ""
  },
  {
   "property": "C07",
   "status": "proved",
   "theorems": [
    "C07_batch_inversion"
   ],
   "note": ""
  },
  {
   "property": "C08",
   "status": "proved",
   "theorems": [
    "C08_field_parameters",
    "C08_published_moduli"
   ],
   "note": ""
  },
  {
   "property": "C09",
   "status": "proved",
   "theorems": [
    "C09_lower_128"
   ],
   "note": ""
  },
  {
   "property": "C10",
   "status": "proved",
   "theorems": [
    "C10_point_arithmetic"
   ],
   "note": "Complete addition formulas of both curve files proved against the chord-and-tangent relation, in every representation and every case."
  },
  {
   "property": "C11",
   "status": "proved",
   "theorems": [
    "C11_closed",
    "C11_group",
    "C11_congruence"
   ],
   "note": "Associativity proved for all points of the curve; stated on what the code returns, up to projective representative."
  },
  {
   "property": "C12",
   "status": "proved",
   "theorems": [
    "C12_multiple",
    "C12_linear",
    "C12_order",
    "C12_generated"
   ],
   "note": "The order of the group is proved: r*G = O by kernel computation, then a counting argument covers all points."
  },
  {
   "property": "C13",
   "status": "proved",
   "theorems": [
    "C13_eq_exact",
    "C13_equality_refuted"
   ],
   "note": "The code tests self.is_zero() twice; exact behaviour proved and full equality refuted."
  },
  {
   "property": "C14",
   "status": "proved",
   "theorems": [
    "C14_decode_encode",
    "C14_encode_decode",
    "C14_encode_shape"
   ],
   "note": ""
  },
  {
   "property": "C15",
   "status": "proved",
   "theorems": [
    "C15_get_xy",
    "C15_from_xy",
    "C15_zero_not_on_curve"
   ],
   "note": ""
  },
  {
   "property": "C16",
   "status": "proved",
   "theorems": [
    "C16_endomorphism",
    "C16_identity"
   ],
   "note": "BETA of the scalar field itself, not its conjugate, on both curves."
  },
  {
   "property": "C17",
   "status": "proved",
   "theorems": [
    "C17_multiexp",
    "C17_multiexp_panics"
   ],
   "note": "every machine (cpus, schedule); the float logarithm is only assumed to have a ceiling between 1 and 57; list length below 2^32 as in the code's own cast"
  },
  {
   "property": "C18",
   "status": "proved",
   "theorems": [
    "C18_inner_product"
   ],
   "note": ""
  },
  {
   "property": "C19",
   "status": "proved",
   "theorems": [
    "C19_fft"
   ],
   "note": ""
  },
  {
   "property": "C20",
   "status": "proved",
   "theorems": [
    "C20_multiply_polynomials",
    "C20_product_of_values"
   ],
   "note": ""
  },
  {
   "property": "C21",
   "status": "proved",
   "theorems": [
    "C21_compute_b",
    "C21_compute_g",
    "C21_compute_g_panics",
    "C21_collapse"
   ],
   "note": ""
  },
  {
   "property": "C22",
   "status": "proved",
   "theorems": [
    "C22_challenge_ladder"
   ],
   "note": "the second half of the statement (agreement above bit 1) is C52_challenge_injective"
  },
  {
   "property": "C23",
   "status": "proved",
   "theorems": [
    "C23_commit_opening",
    "C23_commit_panics"
   ],
   "note": "For every machine. The original wording (a quotient polynomial) did not describe compute_opening; reworded to what the function does."
  },
  {
   "property": "C24",
   "status": "proved",
   "theorems": [
    "C24_coefficients",
    "C24_linear_combinations",
    "C24_nums",
    "C24_combinations"
   ],
   "note": ""
  },
  {
   "property": "C25",
   "status": "proved",
   "theorems": [
    "C25_driver_accounting",
    "C25_driver_witness"
   ],
   "note": ""
  },
  {
   "property": "C26",
   "status": "proved",
   "theorems": [
    "C26_is_satisfied_exact",
    "C26_is_satisfied_total",
    "C26_is_satisfied_honest"
   ],
   "note": ""
  },
  {
   "property": "C27",
   "status": "proved",
   "theorems": [
    "C27_determinism_check_exact",
    "C27_same_sequence_refuted"
   ],
   "note": "exact acceptance condition proved; the stronger reading (identical sequences) is refuted: a witness run that stops early is accepted"
  },
  {
   "property": "C28",
   "status": "proved",
   "theorems": [
    "C28_namespaces_transparent",
    "C28_total_counts",
    "C28_namespace_counts"
   ],
   "note": ""
  },
  {
   "property": "C29",
   "status": "proved",
   "theorems": [
    "C29_allocated_bits"
   ],
   "note": ""
  },
  {
   "property": "C30",
   "status": "proved",
   "theorems": [
    "C30_booleans"
   ],
   "note": ""
  },
  {
   "property": "C31",
   "status": "proved",
   "theorems": [
    "C31_unpack_fe",
    "C31_accepted_decompositions",
    "C31_canonical_refuted"
   ],
   "note": "the bits recompose to the value modulo p and honest bits are canonical; uniqueness is refuted for every value"
  },
  {
   "property": "C32",
   "status": "proved",
   "theorems": [
    "C32_allocated_numbers",
    "C32_invert",
    "C32_sqrt",
    "C32_combinations",
    "C32_fifth_powers"
   ],
   "note": ""
  },
  {
   "property": "C33",
   "status": "proved",
   "theorems": [
    "C33_words"
   ],
   "note": "All UInt32 operations, soundness and completeness, for allocated, negated and constant bits; addmany for 2..10 operands. word_ok also carries hint consistency, needed because addmany folds constants from hints."
  },
  {
   "property": "C34",
   "status": "proved",
   "theorems": [
    "C34_mul_acc2"
   ],
   "note": "Soundness and completeness of mul_acc2."
  },
  {
   "property": "C35",
   "status": "proved",
   "theorems": [
    "C35_sha256"
   ],
   "note": "Circuit against FIPS 180-4 spec, any message length; constants derived from prime roots."
  },
  {
   "property": "C36",
   "status": "proved",
   "theorems": [
    "C36_circuit_is_native"
   ],
   "note": "for every circuit using the sponge (arbitrary other constraints between operations, operations chosen from earlier outputs): satisfying assignments give native outputs, honest hints satisfy"
  },
  {
   "property": "C37",
   "status": "proved",
   "theorems": [
    "C37_permutation_function",
    "C37_native_is_duplex",
    "C37_transcript"
   ],
   "note": "the permutation is specified relationally (fifth powers and roots), the sponge over an arbitrary function computing it"
  },
  {
   "property": "C38",
   "status": "proved",
   "theorems": [
    "C38_first_slot_ignored",
    "C38_outputs_dependent",
    "C38_influence_refuted"
   ],
   "note": "the stronger reading (no absorbed slot is ignored, permutation injective) is refuted by C38_influence_refuted"
  },
  {
   "property": "C39",
   "status": "proved",
   "theorems": [
    "C39_conditional_neg",
    "C39_conditional_endo"
   ],
   "note": "Soundness in every satisfying assignment and honest completeness, over both curves."
  },
  {
   "property": "C40",
   "status": "proved",
   "theorems": [
    "C40_witness_sound",
    "C40_witness_complete",
    "C40_identity_coordinates_refuted"
   ],
   "note": "The claim that the flag forces (0,0) is refuted."
  },
  {
   "property": "C41",
   "status": "proved",
   "theorems": [
    "C41_add_incomplete_complete",
    "C41_add_incomplete_division",
    "C41_add_incomplete_refuted"
   ],
   "note": "The documented full constraint is refuted: the output wires are unconstrained."
  },
  {
   "property": "C42",
   "status": "proved",
   "theorems": [
    "C42_add_complete",
    "C42_add_conditionally_complete",
    "C42_add_identity_sound",
    "C42_add_refuted",
    "C42_add_identities_refuted"
   ],
   "note": "The code comments out the constraints that would tie the output to the slope; the exact consequences are proved."
  },
  {
   "property": "C43",
   "status": "proved",
   "theorems": [
    "C43_double",
    "C43_double_and_add_sound",
    "C43_double_and_add_complete",
    "C43_add_conditionally_incomplete"
   ],
   "note": ""
  },
  {
   "property": "C44",
   "status": "proved",
   "theorems": [
    "C44_multiply",
    "C44_multiply_inv",
    "C44_multiply_fast",
    "C44_multiply_inv_fast",
    "C44_multiply_endo",
    "C44_multiply_inv_endo"
   ],
   "note": "Honest completeness only; soundness fails because of C41 and C42."
  },
  {
   "property": "C45",
   "status": "proved",
   "theorems": [
    "C45_s_evaluations"
   ],
   "note": "Against the reference layout of a circuit (Spec/SystemSpec.v), for every circuit that lays out without errors and fits n gates."
  },
  {
   "property": "C46",
   "status": "proved",
   "theorems": [
    "C46_constant",
    "C46_identity",
    "C46_few_challenges",
    "C46_deferred"
   ],
   "note": "Constant coefficient of t(X,y) as an explicit sum of gate and constraint errors; equal to y^n k(y) for all y iff satisfied; at most 2n+Q exceptional challenges; the deferred check of true openings is the same equation."
  },
  {
   "property": "C47",
   "status": "proved",
   "theorems": [
    "C47_inner_product_complete",
    "C47_honest_claims"
   ],
   "note": "For true claims new_proof never panics; verify_proof accepts its result with the same challenges, final generator and transcript; the prover is still searching only if none of its tried challenges is a square; a prover that needed more than 256 attempts makes the verifier panic (u8 overflow), which is stated."
  },
  {
   "property": "C48",
   "status": "proved",
   "theorems": [
    "C48_complete",
    "C48_in_a_row"
   ],
   "note": "Whole prover and verifier with the real Rescue transcript. The alternative Running (a search for a challenge used up its fuel) is exact: then none of those challenges has a square root."
  },
  {
   "property": "C49",
   "status": "proved",
   "theorems": [
    "C49_dummy_leftovers",
    "C49_dummy_deferred",
    "C49_deferred_exact",
    "C49_deferred_panics"
   ],
   "note": ""
  },
  {
   "property": "C50",
   "status": "proved",
   "theorems": [
    "C50_leftovers_length",
    "C50_deferred_length",
    "C50_leftovers",
    "C50_deferred",
    "C50_small",
    "C50_bits",
    "C50_injective_refuted"
   ],
   "note": "The originally stated injectivity is false for values above 2^128 (C50_injective_refuted); the theorems state exactly what the bytes determine."
  },
  {
   "property": "C51",
   "status": "proved",
   "theorems": [
    "C51_equal_numbers",
    "C51_equal_bits",
    "C51_scalar_bits",
    "C51_witness_bits",
    "C51_challenge_scalar",
    "C51_compute_b",
    "C51_challenge_complete",
    "C51_challenge_sound"
   ],
   "note": "Each gadget: soundness for all satisfying assignments and completeness for honest ones."
  },
  {
   "property": "C52",
   "status": "proved",
   "theorems": [
    "C52_challenge_injective",
    "C52_challenge_invertible"
   ],
   "note": ""
  },
  {
   "property": "C53",
   "status": "proved",
   "theorems": [
    "C53_params_new",
    "C53_params_new_panics"
   ],
   "note": "Random bytes are an arbitrary stream per generator; the retry loop has fuel."
  },
  {
   "property": "C54",
   "status": "proved",
   "theorems": [
    "C54_leftovers_exact"
   ],
   "note": "The exception is the comparison of points (see C13)."
  },
  {
   "property": "C55",
   "status": "proved",
   "theorems": [
    "C55_forgery",
    "C55_soundness_refuted"
   ],
   "note": "The attacker's program [forge] is explicit and made of public functions of the code; like the honest prover it searches for challenges with square roots, and the theorem's other case is that such a search used up its fuel. C55_soundness_refuted instantiates it with a circuit that demands 1 = 0."
  },
  {
   "property": "C56",
   "status": "proved",
   "theorems": [
    "C56_opening_exact",
    "C56_verify_exact",
    "C56_zero_opens_refuted"
   ],
   "note": "verify_exact is an equivalence for arbitrary proofs: the boolean, the leftovers and every deferred field; specification in Spec/VerifySpec.v. zero_opens_refuted refutes the reading that acceptance of an opening alone shows the value of the committed polynomial (the final g must be checked by Leftovers::verify; the free l and r scalars still let a cheating prover through). Exhausting 256 forks is the panic case."
  },
  {
   "property": "C57",
   "status": "proved",
   "theorems": [
    "C57_sound",
    "C57_complete",
    "C57_encoding_unique"
   ],
   "note": "Soundness up to the signs of square roots, completeness exact."
  },
  {
   "property": "C58",
   "status": "proved",
   "theorems": [
    "C58_step",
    "C58_base",
    "C58_verified",
    "C58_exact_accepts",
    "C58_honest"
   ],
   "note": "Completeness of the whole circuit; C58_step_nonvacuous runs it on a proof made by the modelled prover, C58_base_nonvacuous in the base case. The native verifier also accepts an equation whose left side is the point at infinity, the circuit does not: hence verified_exactly. C58_step takes the equations the circuit checks (circuit_accepts); C58_verified derives them from verified_exactly."
  },
  {
   "property": "C59",
   "status": "proved",
   "theorems": [
    "C59_only_if",
    "C59_exact"
   ],
   "note": "Soundness of the circuit for the witnesses the program computes. For assignments that a dishonest prover chooses freely the curve gadgets are not sound (C41, C42; C73 is an attack), so no such statement holds of the whole circuit. C59_rejects: a concrete proof for which no run satisfies the constraints."
  },
  {
   "property": "C60",
   "status": "proved",
   "theorems": [
    "C60_same_system",
    "C60_satisfied",
    "C60_public_inputs"
   ],
   "note": "Layout of the whole recursive circuit, values against no values. The conditions on lengths (shaped) are those of data made by create_proof; starts_well is needed because the circuit adds the second and third generator natively. C60_nonvacuous: the base case of a concrete application, laid out by prover and verifier as the same satisfied system."
  },
  {
   "property": "C61",
   "status": "proved",
   "theorems": [
    "C61_first",
    "C61_next",
    "C61_verifies"
   ],
   "note": "End to end completeness of the recursion, by induction over histories. Running in C61_first and C61_next is the search for a challenge with a square root that does not end within the given fuel; then there is a reachable transcript none of whose first challenges is a square."
  },
  {
   "property": "C62",
   "status": "proved",
   "theorems": [
    "C62_blank",
    "C62_size",
    "C62_fits"
   ],
   "note": "Upper bounds counted over the model's own circuit code, gadget by gadget (a cost judgement with amortised absorption of the sponge). Example C62_nonvacuous lays out a satisfied first proof of size 22 and its verifier's circuit."
  },
  {
   "property": "C63",
   "status": "proved",
   "theorems": [
    "C63_ready",
    "C63_paper",
    "C63_asserted"
   ],
   "note": "Hypotheses on the two parameters that cannot be checked by computation (no exceptional addition in the commitment to the public inputs) are shown to be satisfiable for size 22 in C63_nonvacuous. The searches are bounded by at most 256 tries, as in C61. C63_asserted: the program's five steps end if and only if every proof was created and accepted."
  },
  {
   "property": "C64",
   "status": "proved",
   "theorems": [
    "C64_verify_exact",
    "C64_histories"
   ],
   "note": "The check of the carried leftovers is made twice by the code (in verify_inner and again in verify), the second is redundant. C64_histories: the hypotheses hold for every proof of a history of C61."
  },
  {
   "property": "C65",
   "status": "proved",
   "theorems": [
    "C65_bitcoin_sound",
    "C65_missing_checks"
   ],
   "note": "C65_missing_checks lists what a verifier would still need to conclude that the chain was extended. Non-vacuity: the circuit run on the real genesis block and block 1."
  },
  {
   "property": "C66",
   "status": "proved",
   "theorems": [
    "C66_bitcoin_honest",
    "C66_every_extension_refuted",
    "C66_exact",
    "C66_runs"
   ],
   "note": "The expected property (every extension of the chain can be proved) is refuted by C66_every_extension_refuted; C66_bitcoin_honest is the exact condition. C66_exact: the conditions in Spec/BitcoinRunSpec.v are necessary and sufficient for an honest prover. C66_runs: without them on size and mantissa the run panics, whatever the constraint system."
  },
  {
   "property": "C67",
   "status": "proved",
   "theorems": [
    "C67_ready",
    "C67_chain",
    "C67_bitcoin",
    "C67_asserted"
   ],
   "note": "C67_ready: both system circuits of the Bitcoin application fit into parameters of size 22 and are the same for all payloads with a target. C67_chain: the loop for chains of any length. C67_bitcoin: main with its ten real blocks (real_blocks). Non-vacuity: C67_nonvacuous gives parameters of size 22 that satisfy every assumption on parameters; real_blocks is a concrete chain. C67_asserted: the loop ends if and only if every block got a proof that the verifier accepted."
  },
  {
   "property": "C68",
   "status": "proved",
   "theorems": [
    "C68_accepted_exactly",
    "C68_work_is_free",
    "C68_accepted_extends_refuted"
   ],
   "note": "An exact characterisation (iff). The witness: the prover starts the exponentiation with 0 instead of 1 (it is allocated and never constrained), so that the target is 0, and takes the remainder 2^256 - work. Non-vacuity: block1_accepted (the real blocks 0 and 1)."
  },
  {
   "property": "C69",
   "status": "proved",
   "theorems": [
    "C69_first",
    "C69_next",
    "C69_only_if",
    "C69_error",
    "C69_bitcoin"
   ],
   "note": "Non-vacuity: C69_nonvacuous (C61's application and parameters of size 22: the first step and the next from any old proof), C69_bitcoin_tidy (the Bitcoin circuit meets the condition on names)."
  },
  {
   "property": "C70",
   "status": "proved",
   "theorems": [
    "C70_counts",
    "C70_decides",
    "C70_ready"
   ],
   "note": "C70_decides is an equivalence. Non-vacuity: C70_nonvacuous (C61's application and parameters of size 22)."
  },
  {
   "property": "C71",
   "status": "proved",
   "theorems": [
    "C71_extract",
    "C71_accepted"
   ],
   "note": "The procedure is quantified before the generators, commitments and messages, and its argument contains no points (every point is a multiple of the base point, so a procedure that could look at points would be trivial). Non-vacuity: C71_nonvacuous builds the honest prover for every polynomial and every number of rounds, with four challenges that transcripts can produce."
  },
  {
   "property": "C72",
   "status": "proved",
   "theorems": [
    "C72_extract",
    "C72_convinced"
   ],
   "note": "The procedure is quantified before the generators and the commitments, and its arguments contain no points. C72_convinced connects the hypothesis to verified_exactly, honest_leftovers and Deferred::verify of the code. Non-vacuity: C72_nonvacuous builds the honest prover for every satisfied circuit (any parameters, dummy old leftovers), C72_square gives a concrete circuit. Interactive: the challenges are chosen by the rewinding, the hash is not modelled as a random oracle."
  },
  {
   "property": "C73",
   "status": "proved",
   "theorems": [
    "C73_honest",
    "C73_attack",
    "C73_continues",
    "C73_history_refuted"
   ],
   "note": "The expected property (an accepted proof shows a chain of accepted steps from the initial payload) is false; this is the exact behaviour found. C73_honest: the circuit of the attacker is the code's circuit but for the values of the sums. C73_history_refuted is a concrete application and parameters of size 22 that meet all hypotheses: every proof made by create_proof has the initial payload, and the attacker gets an accepted proof for another one."
  },
  {
   "property": "C74",
   "status": "proved",
   "theorems": [
    "C74_bitcoin_attack",
    "C74_history_refuted"
   ],
   "note": "Instance of C73 with C66 and C67. C74_history_refuted: parameters of size 22 and real headers that meet every hypothesis."
  },
  {
   "property": "C75",
   "status": "proved",
   "theorems": [
    "C75_last_step",
    "C75_extract",
    "C75_bitcoin"
   ],
   "note": "The positive counterpart of C73. As in C72 the extraction is stated for a verifier that compares points exactly. C75_nonvacuous: the first step of a concrete application meets all hypotheses."
  },
  {
   "property": "C76",
   "status": "proved",
   "theorems": [
    "C76_binding",
    "C76_linear",
    "C76_evaluations"
   ],
   "note": "The verifier of C76_evaluations compares points exactly, as in C71. C76_collision and C76_nonvacuous: generators G and 2 G, for which the polynomials 2 and X have one commitment with two convincing openings."
  },
  {
   "property": "C77",
   "status": "proved",
   "theorems": [
    "C77_prover",
    "C77_create",
    "C77_verify",
    "C77_coordinates",
    "C77_anywhere"
   ],
   "note": "One machine is used by all parallel calls of a run, with a schedule per call site. C77_nonvacuous, C77_same: every proof of a history of proofs (C61) meets the hypotheses."
  }
 ]
}