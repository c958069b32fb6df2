(** An attacker's program against [RecursiveProof::verify].  It is not part of /repo:
    it calls public functions of it, and proves with the circuit of a dishonest prover
    (Spec/CheatSpec.v).  It is given two payloads such that the application accepts the
    step from one to the other, and no proof of the first. *)
From Coq Require Import ZArith List Bool Arith.
From Verif Require Import Model.FieldTrait Model.Circuits Model.Synthesis Model.Boolean Model.Curve Model.Threads Model.Util Model.Rescue Model.Params
  Model.Opening Model.Proofs Model.Recursion Model.RecursiveProof
  Spec.RecursiveCircuitSpec Spec.ChainSpec Spec.CheatSpec.
Import ListNotations.
Open Scope nat_scope.
Open Scope list_scope.
Open Scope out_scope.

Section Fake.
  Context {C : Curve}.
  Notation F := (Scalar C).
  (** A proof for a circuit without a witness and for arbitrary public inputs, whose
      commitment is [K].  As in Spec/ForgerySpec.v, except that three commitments are
      the base point instead of the identity.  It verifies with the leftovers returned
      next, which are the dummy ones but for their [s_new_commitment].  The last two
      points are what the dishonest prover of the next step takes for the results of
      two additions, and with those it passes for a proof with the dummy leftovers
      themselves. *)
  Definition fake (M : Machine) (fuel : nat) (params : Params C) (circuit : Var -> CS F unit) (inputs : list F) (K : C) (dummy : Leftovers C)
      : outcome (res (Proof_ C * Leftovers C * C * C)) :=
    let n := p_n params in
    let d := p_d params in
    let packed := challenges_sq_packed_new dummy in
    roots <~ out_opt (root_challenges (unpack_challenges packed)) ;;
    '(roots_inv, allinv) <~ out_opt (invert_all roots) ;;
    inputmap <~? synthesize (inputmap_backend F) [] circuit ;;
    ky <~ out_opt (build_ky [fzero] (combine inputmap (fone :: inputs))) ;;
    let transcript := append_point (append_point rescue_new K) c_zero in
    '(y, transcript) <~ get_challenge F transcript ;;
    let transcript := append_point (append_point (append_point transcript c_one) c_one) c_one in
    '(x, transcript) <~ get_challenge F transcript ;;
    '(y_new, transcript) <~ get_challenge F (append_point transcript c_zero) ;;
    sx_new <~? compute_sx params circuit y_new ;;
    s_new_commitment <~ out_opt (commit M params sx_new false) ;;
    let transcript := append_point transcript s_new_commitment in
    k_y <~ out_opt (compute_opening params ky y false) ;;
    xi <~ out_opt (f_invert x) ;;
    let t_x := fneg (fmul (fmul k_y (pow F y (exp64 n))) xi) in
    g_x <~ out_opt (compute_b x roots roots_inv) ;;
    let transcript := fold_left append_scalar [k_y; fzero; fzero; fzero; fzero; t_x; fzero; fzero; g_x] transcript in
    '(z, transcript) <~ get_challenge F transcript ;;
    let z : F := get_challenge_scalar z in
    zi <~ out_opt (f_invert z) ;;
    s_x <~ out_opt (compute_opening params sx_new x false) ;;
    let z2i := fmul zi zi in
    let c := fsub (fmul t_x z2i) (fmul s_x (fmul z2i z2i)) in
    let gx := compute_g_coeffs_for_inner_product (unpack_challenges packed) allinv in
    let px := fold_left (fun px poly => add_zip (mul_px px z) poly) [[c]; []; []; []; sx_new; gx] (repeat fzero d) in
    let zeros := repeat fzero d in
    '(inner_product, _, _, _) <~ new_proof M fuel transcript
      [(mkOpening c_zero (combine_openings (C := C) z fzero [fzero; fzero; t_x; fzero; fzero; g_x]) x false, px);
       (mkOpening c_zero fzero (fmul x y) true, []);
       (mkOpening c_zero fzero fzero false, zeros);
       (mkOpening c_zero (fadd fzero (fmul k_y z)) y false, add_zip zeros (mul_px ky z));
       (mkOpening c_zero fzero y_new false, zeros)]
      (p_generators params) (p_k params) ;;
    let s := c_mul (hd c_zero (p_generators params)) c in
    let fourth := c_mul (c_mul (c_mul s z) z) z in
    let third := match c_get_xy fourth with Some _ => c_one | None => c_mul c_one (fneg zi) end in
    Done (Ok (mkProof c_zero c_one c_one c_one c_zero s_new_commitment
                fzero fzero fzero fzero t_x fzero fzero inner_product,
              mkLeft (c_add s (c_mul c_one (fneg (fadd (fadd zi z2i) (fmul zi z2i))))) fzero (g_new dummy) packed,
              third, fourth)).
End Fake.

Definition attack {E1 E2 : Curve} (cy : Cycle E1 E2) (M : Machine) (fuel : nat) (e1params : Params E1) (e2params : Params E2)
    (circuit : BothCircuits E1 E2) (old_payload new_payload : list Z) : outcome (res (RecursiveProof E1 E2)) :=
  left1 <~ out_opt (leftovers_dummy M e1params) ;;
  left2 <~ out_opt (leftovers_dummy M e2params) ;;
  old_deferred <~ out_opt (deferred_dummy (p_k e1params)) ;;
  let old_circuit := as_circuit (swap cy) (blank_circuit (swap cy) (on_scalar2 circuit) e1params old_payload) in
  (* the public inputs of the proof that is missing, and their commitment *)
  first <~ out_opt (nth_error (p_generators e2params) 1) ;;
  gens <~ out_opt (slice_from (p_generators e2params) 2) ;;
  '(k_commitment, inputs) <~ out_opt (bit_inputs first gens
     (bytes_bits (old_payload ++ leftovers_to_bytes left2 ++ leftovers_to_bytes left1 ++ deferred_to_bytes old_deferred))) ;;
  '(proof, other_left2, third, fourth) <~? fake M fuel e2params old_circuit inputs k_commitment left2 ;;
  '(_, new_leftovers, deferred, forkvalues) <~? proof_verify M proof other_left2 e2params old_circuit inputs (Some k_commitment) ;;
  let step := mkVC e2params (Some false) (inner_for cy (on_scalar1 circuit))
     (Some (as_old_proof cy (mkRP proof left2 left1 old_deferred old_payload)))
     new_payload (Some forkvalues) (Some (leftovers_to_bytes left1)) (Some new_leftovers) (Some deferred) in
  let sums : list (E2 -> E2 -> E2) := [c_add; c_add; (fun _ _ => third); (fun _ _ => fourth)] in
  '(proof, _) <~? proof_new M fuel e1params
     (cast (P := fun F => Var -> CS F unit) (cyc_base2 cy) (fun one => vc_synthesize_with one (endo_chain_with one sums) step)) left1 ;;
  Done (Ok (mkRP proof left1 new_leftovers deferred new_payload)).

(** What the attacker needs: payloads of the application's length, a step between them
    that the application accepts, and no exceptional addition in the commitment to the
    public inputs of the missing proof. *)
Definition can_attack {E1 E2 : Curve} (M : Machine) (P1 : Params E1) (P2 : Params E2) (c : BothCircuits E1 E2) (len : nat) (ok : list bool -> Prop)
    (old_payload new_payload : list Z) : Prop :=
  payload_ok len ok old_payload /\ payload_ok len ok new_payload /\
  accepts (on_scalar1 c) (flat_map byte_bits old_payload) (flat_map byte_bits new_payload) /\
  forall L1 L2 (OD : Deferred (Scalar E1)), leftovers_dummy M P1 = Some L1 -> leftovers_dummy M P2 = Some L2 -> deferred_dummy (p_k P1) = Some OD ->
    regular P2 (flat_map byte_bits (old_payload ++ leftovers_to_bytes L2 ++ leftovers_to_bytes L1 ++ deferred_to_bytes OD)).
