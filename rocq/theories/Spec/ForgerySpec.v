(** An attacker's program against [Proof::verify].  It is not part of /repo: it
    calls public functions of it and takes about as long as an honest prover.
    It is given a circuit without any witness and arbitrary public inputs, and
    chooses both a proof and the old leftovers that the proof refers to. *)
From Coq Require Import ZArith List Bool Arith.
From Verif Require Import Model.FieldTrait Model.Circuits Model.Synthesis Model.Dev Model.Curve
  Model.Threads Model.Util Model.Rescue Model.Params Model.Opening Model.Proofs Spec.CircuitSpec Spec.SystemSpec.
Import ListNotations.
Open Scope nat_scope.
Open Scope list_scope.
Open Scope out_scope.

Section Forgery.
  Context {C : Curve}.
  Notation F := (Scalar C).

  (** Everything a verifier can check is accepted: the old leftovers, the proof
      for the circuit and the public inputs, its deferred value and its leftovers. *)
  Definition all_accepted (M : Machine) (P : Params C) (circuit : Var -> CS F unit) (inputs : list F)
      (L : Leftovers C) (pf : Proof_ C) : Prop :=
    leftovers_verify M L P circuit = Done (Ok true) /\
    exists L' D forks, proof_verify M pf L P circuit inputs None = Done (Ok (true, L', D, forks)) /\
      deferred_verify D (p_k P) = Some true /\ leftovers_verify M L' P circuit = Done (Ok true).
  (** Some values of the wires satisfy the circuit with these public inputs. *)
  Definition satisfiable (t : layout F) (inputs : list F) : Prop :=
    exists a b c, gates_satisfied (l_gates t) a b c /\ lcs_satisfied (l_lcs t) (l_inputs t) (fone :: inputs) a b c.

  (** The commitments are the identity and the openings 0, except t(x) (from the
      deferred equation) and s(X, y_new) (honest, so that the new leftovers
      verify).  The old leftovers are the dummy ones with another
      [s_new_commitment]: a multiple of the first generator, chosen last, which
      makes the combined claim true.  [Leftovers::verify] compares it with the
      commitment to s(X, 0) = 0, and the identity equals every point. *)
  Definition forge (M : Machine) (fuel : nat) (params : Params C) (circuit : Var -> CS F unit) (inputs : list F)
      : outcome (res (Leftovers C * Proof_ C)) :=
    let n := p_n params in
    let d := p_d params in
    dummy <~ out_opt (leftovers_dummy M params) ;;
    let packed := challenges_sq_packed_new dummy in
    roots <~ out_opt (root_challenges (unpack_challenges packed)) ;;
    '(roots_inv, allinv) <~ out_opt (invert_all roots) ;;
    inputmap <~? synthesize (inputmap_backend F) [] circuit ;;
    ky <~ out_opt (build_ky [fzero] (combine inputmap (fone :: inputs))) ;;
    k_commitment <~ out_opt (commit M params ky false) ;;
    let transcript := append_point (append_point rescue_new k_commitment) c_zero in
    '(y, transcript) <~ get_challenge F transcript ;;
    let transcript := append_point (append_point (append_point transcript c_zero) c_zero) c_zero in
    '(x, transcript) <~ get_challenge F transcript ;;
    '(y_new, transcript) <~ get_challenge F (append_point transcript c_zero) ;;
    sx_new <~? compute_sx params circuit y_new ;;
    s_new_commitment <~ out_opt (commit M params sx_new false) ;;
    let transcript := append_point transcript s_new_commitment in
    k_y <~ out_opt (compute_opening params ky y false) ;;
    xi <~ out_opt (f_invert x) ;;
    let t_x := fneg (fmul (fmul k_y (pow F y (exp64 n))) xi) in
    g_x <~ out_opt (compute_b x roots roots_inv) ;;
    let transcript := fold_left append_scalar [k_y; fzero; fzero; fzero; fzero; t_x; fzero; fzero; g_x] transcript in
    '(z, transcript) <~ get_challenge F transcript ;;
    let z : F := get_challenge_scalar z in
    zi <~ out_opt (f_invert z) ;;
    s_x <~ out_opt (compute_opening params sx_new x false) ;;
    let z2i := fmul zi zi in
    let c := fsub (fmul t_x z2i) (fmul s_x (fmul z2i z2i)) in
    let gx := compute_g_coeffs_for_inner_product (unpack_challenges packed) allinv in
    let px := fold_left (fun px poly => add_zip (mul_px px z) poly) [[c]; []; []; []; sx_new; gx] (repeat fzero d) in
    let zeros := repeat fzero d in
    '(inner_product, _, _, _) <~ new_proof M fuel transcript
      [(mkOpening c_zero (combine_openings (C := C) z fzero [fzero; fzero; t_x; fzero; fzero; g_x]) x false, px);
       (mkOpening c_zero fzero (fmul x y) true, []);
       (mkOpening c_zero fzero fzero false, zeros);
       (mkOpening c_zero (fadd fzero (fmul k_y z)) y false, add_zip zeros (mul_px ky z));
       (mkOpening c_zero fzero y_new false, zeros)]
      (p_generators params) (p_k params) ;;
    Done (Ok (mkLeft (c_mul (hd c_zero (p_generators params)) c) fzero (g_new dummy) packed,
              mkProof c_zero c_zero c_zero c_zero c_zero s_new_commitment
                fzero fzero fzero fzero t_x fzero fzero inner_product)).
End Forgery.
