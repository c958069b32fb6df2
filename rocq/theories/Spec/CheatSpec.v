(** A dishonest prover of the recursive circuit, and an attacker's program that uses
    it.  Nothing here is part of /repo.

    [CurvePoint::add] leaves the coordinates of the sum unconstrained (C42), so its
    prover may take other points for them.  [cp_add_with sum] is [cp_add] of
    Model/Ecc.v where the point p1 + p2 that the closures compute is replaced by
    [sum p1 p2]; nothing else is changed, so the constraints are the same.
    [vc_synthesize_with] is [vc_synthesize] of Model/Recursion.v where the additions
    for p_commitment are made by a given function.  That both are the code's circuit
    when the honest sum is taken is shown in Properties/CheatProps.v. *)
From Coq Require Import String List Bool Arith ZArith.
From Verif Require Import Model.FieldTrait Model.Circuits Model.Num Model.Boolean Model.Curve Model.Threads
  Model.Util Model.Rescue Model.RescueGadget Model.Ecc Model.Params Model.Opening Model.Proofs Model.Recursion.
Import ListNotations.
Open Scope string_scope.
Open Scope list_scope.
Open Scope nat_scope.
Open Scope cs_scope.
Notation length := List.length.

Section Cheat.
  Context {C : Curve}.
  Local Notation F := (Base C).
  Variable one : Var.
  Local Notation req := ok_or_missing.
  Local Notation fb := (@f_from_bool F).
  Local Notation "x <? m ; f" := (rbind m (fun x => f)) (at level 61, m at next level, right associativity).
  Local Notation lc := (n_lc one).
  Local Notation lc1 b := (bool_lc (F := F) b one COne).
  Local Notation CurvePoint := (CurvePoint C).
  Local Notation VerificationCircuit := (VerificationCircuit C).

  Definition cp_add_with (sum : C -> C -> C) (self other : CurvePoint) : CS F CurvePoint :=
    let x1_val := n_value (cp_x self) in
    let y1_val := n_value (cp_y self) in
    let x2_val := n_value (cp_x other) in
    let y2_val := n_value (cp_y other) in
    p1_val <- point_unwrap x1_val y1_val ;;
    p2_val <- point_unwrap x2_val y2_val ;;
    let p3_val := omap2 (fun p1 p2 => coords_or_zero (sum p1 p2)) p1_val p2_val in
    let x3_val := option_map (fun '(x, _, _) => x) p3_val in
    let y3_val := option_map (fun '(_, y, _) => y) p3_val in
    let p3_is_identity_val := option_map (fun '(_, _, b) => b) p3_val in
    let p1_is_identity_val := bool_value (cp_id self) in
    let p2_is_identity_val := bool_value (cp_id other) in
    let x4_val := omap2 (fun (x3 : F) (b : bool) => if b then fzero else x3) x3_val p3_is_identity_val in
    let y4_val := omap2 (fun (y3 : F) (b : bool) => if b then fzero else y3) y3_val p3_is_identity_val in
    let pick (b : option bool) (u v : option F) :=
      obind u (fun u => obind v (fun v => option_map (fun b : bool => if b then u else v) b)) in
    let x5_val := pick p1_is_identity_val x2_val x4_val in
    let y5_val := pick p1_is_identity_val y2_val y4_val in
    let x_out_val := pick p2_is_identity_val x1_val x5_val in
    let y_out_val := pick p2_is_identity_val y1_val y5_val in
    x_out <- namespace "x_out" (num_alloc (req x_out_val)) ;;
    y_out <- namespace "y_out" (num_alloc (req y_out_val)) ;;
    p3_is_identity <- namespace "p3_is_identity" (bit_alloc (req p3_is_identity_val)) ;;
    let x1_lc := lc (cp_x self) in
    let y1_lc := lc (cp_y self) in
    let x2_lc := lc (cp_x other) in
    let y2_lc := lc (cp_y other) in
    let x2mx1_val := omap2 fsub x2_val x1_val in
    let x_is_same_val := option_map (fun x2mx1 => fb (feqb x2mx1 fzero)) x2mx1_val in
    let x2mx1psame_val := omap2 fadd x2mx1_val x_is_same_val in
    '(a_var, x_is_same_var, b_var, _) <- multiply "(x2 - x1) * x_is_same = 0"
      (x2mx1 <? req x2mx1_val ; x_is_same <? req x_is_same_val ; Ok (x2mx1, x_is_same, fzero)) ;;
    enforce_zero (lc_sub_v (lc_sub_lc x2_lc x1_lc) a_var) ;;;
    enforce_zero (lc_from b_var) ;;;
    let x2mx1_inv_val := option_map (fun x2mx1 : F =>
      match f_invert x2mx1 with Some inv => inv | None => fone end) x2mx1_val in
    '(c_var, d_var, e_var, _) <- multiply "(x2 - x1) * (x2 - x1)^-1 = (1 - x_is_same)"
      (x2mx1 <? req x2mx1_val ; x2mx1_inv <? req x2mx1_inv_val ; x_is_same <? req x_is_same_val ;
       Ok (x2mx1, x2mx1_inv, fsub fone x_is_same)) ;;
    enforce_zero (lc_sub_v (lc_from a_var) c_var) ;;;
    enforce_zero (lc_sub_v (lc_sub_v (lc_add_cv lc_zero COne one) x_is_same_var) e_var) ;;;
    let x1_sq := option_map (fun x => fmul x x) x1_val in
    '(f_var, g_var, h_var, _) <- multiply "x1^2"
      (x <? req x1_val ; xsq <? req x1_sq ; Ok (x, x, xsq)) ;;
    enforce_zero (lc_sub_v x1_lc f_var) ;;;
    enforce_zero (lc_sub_v x1_lc g_var) ;;;
    let j_val := omap2 fsub y2_val y1_val in
    let lambda_diff_val := omap2 (fun x2mx1psame y2my1 : F =>
      match f_invert x2mx1psame with Some inv => fmul inv y2my1 | None => fone end) x2mx1psame_val j_val in
    '(i_var, lambda_diff_var, j_var, _) <- multiply "(x2 - x1 + x_is_same) * lambda_diff = (y2 - y1)"
      (x2mx1psame <? req x2mx1psame_val ; y2my1 <? req j_val ; lambda_diff <? req lambda_diff_val ;
       Ok (x2mx1psame, lambda_diff, y2my1)) ;;
    enforce_zero (lc_sub_v (lc_add_v (lc_sub_lc x2_lc x1_lc) x_is_same_var) i_var) ;;;
    enforce_zero (lc_sub_v (lc_sub_lc y2_lc y1_lc) j_var) ;;;
    let k_val := option_map (fun y1 => fadd y1 y1) y1_val in
    let l_val := option_map (fun x1sq => fadd (fadd x1sq x1sq) x1sq) x1_sq in
    let lambda_same_val := omap2 (fun y1two x1sq3 : F =>
      match f_invert y1two with Some inv => fmul inv x1sq3 | None => fzero end) k_val l_val in
    '(k_var, lambda_same_var, l_var, _) <- multiply "(2 y1) * lambda_same = 3 x1^2"
      (y1two <? req k_val ; x1sq3 <? req l_val ; lambda_same <? req lambda_same_val ;
       Ok (y1two, lambda_same, x1sq3)) ;;
    enforce_zero (lc_sub_v (lc_add_lc y1_lc y1_lc) k_var) ;;;
    enforce_zero (lc_sub_v (lc_add_cv lc_zero (CFull (f_from_u64 3)) h_var) l_var) ;;;
    let lambda_val := obind x2mx1_val (fun x2mx1 =>
      if feqb x2mx1 fzero then lambda_same_val else lambda_diff_val) in
    let lambda_sq_val := option_map (fun lambda => fmul lambda lambda) lambda_val in
    '(lambda_var, m_var, n_var, _) <- multiply "lambda * lambda = x1 + x2 + x3"
      (lambda <? req lambda_val ; lambda_sq <? req lambda_sq_val ; Ok (lambda, lambda, lambda_sq)) ;;
    enforce_zero (lc_sub_v (lc_from lambda_var) m_var) ;;;
    let x3_lc := lc_sub_lc (lc_sub_lc (lc_from n_var) x1_lc) x2_lc in
    '(o_var, p_var, q_var, _) <- multiply "x_is_same * (lambda_same - lambda_diff) = (lambda - lambda_diff)"
      (x_is_same <? req x_is_same_val ; lambda_diff <? req lambda_diff_val ; lambda_same <? req lambda_same_val ;
       lambda <? req lambda_val ;
       Ok (x_is_same, fsub lambda_same lambda_diff, fsub lambda lambda_diff)) ;;
    enforce_zero (lc_sub_v (lc_from x_is_same_var) o_var) ;;;
    enforce_zero (lc_sub_v (lc_sub_v (lc_from lambda_same_var) lambda_diff_var) p_var) ;;;
    enforce_zero (lc_sub_v (lc_sub_v (lc_from lambda_var) lambda_diff_var) q_var) ;;;
    '(r_var, s_var, t_var, _) <- multiply "(x1 - x3) * lambda = y1 + y3"
      (lambda <? req lambda_val ; lambda_sq <? req lambda_sq_val ; x1 <? req x1_val ; x2 <? req x2_val ;
       let d := fadd (fadd (fsub x1 lambda_sq) x1) x2 in Ok (d, lambda, fmul d lambda)) ;;
    enforce_zero (lc_sub_v (lc_sub_lc x1_lc x3_lc) r_var) ;;;
    enforce_zero (lc_sub_v (lc_from lambda_var) s_var) ;;;
    '(u_var, p3_is_identity_var, v_var, _) <- multiply "(y2 + y1) * p3_is_identity = 0"
      (y1 <? req y1_val ; y2 <? req y2_val ; b <? req p3_is_identity_val ; Ok (fadd y2 y1, fb b, fzero)) ;;
    enforce_zero (lc_sub_v (lc_add_lc y2_lc y1_lc) u_var) ;;;
    enforce_zero (lc_sub_v (lc_from (bit_var p3_is_identity)) p3_is_identity_var) ;;;
    enforce_zero (lc_from v_var) ;;;
    '(y_var, z_var, x4_var, _) <- multiply "x3 * (1 - p3_is_identity) = x4"
      (x3 <? req x3_val ; x4 <? req x4_val ; b <? req p3_is_identity_val ; Ok (x3, fb (negb b), x4)) ;;
    enforce_zero (lc_sub_v (lc_sub_v (lc_from one) p3_is_identity_var) z_var) ;;;
    '(aa_var, bb_var, y4_var, _) <- multiply "y3 * (1 - p3_is_identity) = y4"
      (y3 <? req y3_val ; y4 <? req y4_val ; b <? req p3_is_identity_val ; Ok (y3, fb (negb b), y4)) ;;
    enforce_zero (lc_sub_v (lc_sub_v (lc_from one) p3_is_identity_var) bb_var) ;;;
    '(cc_var, dd_var, ee_var, _) <- multiply "p1_is_identity * (x2 - x4) = (x5 - x4)"
      (x2 <? req x2_val ; x4 <? req x4_val ; x5 <? req x5_val ; b <? req p1_is_identity_val ;
       Ok (fb b, fsub x2 x4, fsub x5 x4)) ;;
    enforce_zero (lc_sub_v (lc1 (cp_id self)) cc_var) ;;;
    enforce_zero (lc_sub_v (lc_sub_v x2_lc x4_var) dd_var) ;;;
    let x5_lc := lc_add_v (lc_from ee_var) x4_var in
    '(ff_var, gg_var, hh_var, _) <- multiply "p1_is_identity * (y2 - y4) = (y5 - y4)"
      (y2 <? req y2_val ; y4 <? req y4_val ; y5 <? req y5_val ; b <? req p1_is_identity_val ;
       Ok (fb b, fsub y2 y4, fsub y5 y4)) ;;
    enforce_zero (lc_sub_v (lc1 (cp_id self)) ff_var) ;;;
    enforce_zero (lc_sub_v (lc_sub_v y2_lc y4_var) gg_var) ;;;
    let y5_lc := lc_add_v (lc_from hh_var) y4_var in
    '(ii_var, jj_var, kk_var, _) <- multiply "p2_is_identity * (x1 - x5) = (x_out - x5)"
      (x1 <? req x1_val ; x5 <? req x5_val ; x_out <? req x_out_val ; b <? req p2_is_identity_val ;
       Ok (fb b, fsub x1 x5, fsub x_out x5)) ;;
    enforce_zero (lc_sub_v (lc1 (cp_id other)) ii_var) ;;;
    enforce_zero (lc_sub_v (lc_sub_lc x1_lc x5_lc) jj_var) ;;;
    enforce_zero (lc_sub_v (lc_sub_lc (num_lc x_out) x5_lc) kk_var) ;;;
    '(ll_var, mm_var, nn_var, _) <- multiply "p2_is_identity * (y1 - y5) = (y_out - y5)"
      (y1 <? req y1_val ; y5 <? req y5_val ; y_out <? req y_out_val ; b <? req p2_is_identity_val ;
       Ok (fb b, fsub y1 y5, fsub y_out y5)) ;;
    enforce_zero (lc_sub_v (lc1 (cp_id other)) ll_var) ;;;
    enforce_zero (lc_sub_v (lc_sub_lc y1_lc y5_lc) mm_var) ;;;
    enforce_zero (lc_sub_v (lc_sub_lc (num_lc y_out) y5_lc) nn_var) ;;;
    ret (mkCP (n_from x_out) (n_from y_out) (Is p3_is_identity)).

  (** [endo_chain] with one way of adding for each point *)
  Fixpoint endo_chain_with (sums : list (C -> C -> C)) (z : list AllocatedBit) (first : CurvePoint) (others : list CurvePoint) : CS F CurvePoint :=
    match others with
    | [] => ret first
    | q :: others =>
        p <- (p <- namespace "mul z" (cp_multiply_endo one first z) ;;
              namespace "add" (cp_add_with (hd c_add sums) p q)) ;;
        endo_chain_with (tl sums) z p others
    end.

  Definition g_verify_proof_with (chain : list AllocatedBit -> CurvePoint -> list (CurvePoint) -> CS F (CurvePoint))
      (self : VerificationCircuit) (base_case : AllocatedBit) (k_commitment : CurvePoint)
      (old_leftovers new_deferred new_leftovers : list AllocatedBit) : CS F unit :=
    let k := p_k (vc_params self) in
    t <- namespace "init Rescue" (gadget_new one) ;;
    t <- namespace "commit k_commitment" (commit_point one t k_commitment) ;;
    '(r_commitment, t) <- witness_commit one self "witness r_commitment" (fun p => pf_r_commitment (op_proof p)) t ;;
    '(y_cur, t) <- namespace "y_cur challenge" (g_get_challenge one t) ;;
    '(s_cur_commitment, t) <- witness_commit one self "witness s_cur_commitment" (fun p => pf_s_cur_commitment (op_proof p)) t ;;
    '(t_positive_commitment, t) <- witness_commit one self "witness t_positive_commitment" (fun p => pf_t_positive_commitment (op_proof p)) t ;;
    '(t_negative_commitment, t) <- witness_commit one self "witness t_negative_commitment" (fun p => pf_t_negative_commitment (op_proof p)) t ;;
    '(x, t) <- namespace "x challenge" (g_get_challenge one t) ;;
    '(c_commitment, t) <- witness_commit one self "witness c_commitment" (fun p => pf_c_commitment (op_proof p)) t ;;
    '(y_new, t) <- namespace "y_new challenge" (g_get_challenge one t) ;;
    '(s_new_commitment, t) <- witness_commit one self "witness s_new_commitment" (fun p => pf_s_new_commitment (op_proof p)) t ;;
    g <- g_constant ;;
    '(ky_opening_pt, t) <- opening_point one g t new_deferred (128 * 4) ;;
    '(rx_opening_pt, t) <- opening_point one g t new_deferred (128 * 4 + 256 * 4) ;;
    '(rxy_opening_pt, t) <- opening_point one g t new_deferred (128 * 4 + 256 * 5) ;;
    '(sx_old_opening_pt, t) <- witness_commit one self "witness sx_old_opening_pt" (fun p => c_mul c_one (pf_sx_old_opening (op_proof p))) t ;;
    '(sx_cur_opening_pt, t) <- opening_point one g t new_deferred (128 * 4 + 256 * 3) ;;
    '(tx_positive_opening_pt, t) <- opening_point one g t new_deferred (128 * 4 + 256 * 1) ;;
    '(tx_negative_opening_pt, t) <- opening_point one g t new_deferred (128 * 4 + 256 * 2) ;;
    '(sx_new_opening_pt, t) <- witness_commit one self "witness sx_new_opening_pt" (fun p => c_mul c_one (pf_sx_new_opening (op_proof p))) t ;;
    '(gx_old_opening_pt, t) <- opening_point one g t new_deferred (256 * 6 + (4 + k) * 128) ;;
    '(z, t) <- namespace "z challenge" (g_get_challenge one t) ;;
    s_old_commitment <- witness_of one self "witness s_old_commitment" (fun p => Proofs.s_new_commitment (op_oldproof1 p)) ;;
    point_equal_unless one "s_old_commitment" base_case s_old_commitment old_leftovers 0 ;;;
    g_old <- witness_of one self "witness g_old" (fun p => Proofs.g_new (op_oldproof1 p)) ;;
    point_equal_unless one "g_old" base_case g_old old_leftovers (256 * 2 + 128) ;;;
    p_commitment <- namespace "p_commitment" (chain z r_commitment
      [s_old_commitment; s_cur_commitment; t_positive_commitment; t_negative_commitment; s_new_commitment; g_old]) ;;
    p_opening <- namespace "p_commitment" (endo_chain one z rx_opening_pt
      [sx_old_opening_pt; sx_cur_opening_pt; tx_positive_opening_pt; tx_negative_opening_pt; sx_new_opening_pt; gx_old_opening_pt]) ;;
    q_commitment <- namespace "q_commitment" (endo_chain one z k_commitment [c_commitment]) ;;
    qy_opening <- namespace "qy_opening" (endo_chain one z ky_opening_pt [sx_cur_opening_pt]) ;;
    b <- mapM (fun i => bits_at new_deferred (256 * (7 + i) + (4 + 2 * k) * 128) 256) (seq 0 5) ;;
    '(g_new, challenges_sq_packed_new) <- namespace "inner product" (verify_inner_product one self base_case t
      [(p_commitment, p_opening); (r_commitment, rxy_opening_pt); (c_commitment, sx_old_opening_pt);
       (q_commitment, qy_opening); (c_commitment, sx_new_opening_pt)] b) ;;
    point_equal_unless one "s_new_commitment" base_case s_new_commitment new_leftovers 0 ;;;
    (bits <- bits_at new_leftovers 512 128 ;;
     namespace "y_new in new_leftovers" (equal_unless_base_case one base_case y_new bits)) ;;;
    point_equal_unless one "g_new" base_case g_new new_leftovers (256 * 2 + 128) ;;;
    foldM (fun (_ : unit) '(i, challenge_sq_packed) =>
      bits <- bits_at new_leftovers (256 * 4 + 128 + 128 * i) 128 ;;
      namespace "challenge in new_leftovers" (equal_unless_base_case one base_case challenge_sq_packed bits) ;;;
      bits <- bits_at new_deferred (4 * 128 + 6 * 256 + k * 128 + 256 + i * 128) 128 ;;
      namespace "challenge in new_deferred" (equal_unless_base_case one base_case challenge_sq_packed bits))
      (enumerate challenges_sq_packed_new) tt ;;;
    (bits <- bits_at new_deferred 0 128 ;;
     namespace "challenge x in new_deferred" (equal_unless_base_case one base_case x bits)) ;;;
    (bits <- bits_at new_deferred (128 * 2) 128 ;;
     namespace "challenge y_cur in new_deferred" (equal_unless_base_case one base_case y_cur bits)) ;;;
    (bits <- bits_at new_deferred (128 * 3) 128 ;;
     namespace "challenge y_new in new_deferred" (equal_unless_base_case one base_case y_new bits)).

  Definition vc_synthesize_with (chain : list AllocatedBit -> CurvePoint -> list (CurvePoint) -> CS F (CurvePoint))
      (self : VerificationCircuit) : CS F unit :=
    let k := p_k (vc_params self) in
    payload_bits <- input_bits "new_payload" (bytes_bits (vc_new_payload self)) ;;
    leftovers1 <- input_bits "old_leftovers"
      (match vc_old_leftovers self with Some l => bytes_bits l | None => repeat false (leftovers_bits k) end) ;;
    leftovers2 <- input_bits "new_leftovers"
      (match vc_new_leftovers self with
       | Some l => bytes_bits (leftovers_to_bytes l) | None => repeat false (leftovers_bits k) end) ;;
    deferred <- input_bits "deferred"
      (match vc_deferred self with
       | Some l => bytes_bits (deferred_to_bytes l) | None => repeat false (deferred_bits k) end) ;;
    check_bits "constrain new_payload" payload_bits ;;;
    check_bits "constrain old_leftovers" leftovers1 ;;;
    check_bits "constrain new_leftovers" leftovers2 ;;;
    check_bits "constrain deferred" deferred ;;;
    base_case <- namespace "is base case" (bit_alloc (req (vc_base_case self))) ;;
    '(gx, gy) <- unwrap (nth_error (p_generators_xy (vc_params self)) 1) ;;
    let k_commitment := cp_constant gx gy in
    old_payload <- match vc_proof self with
                   | Some p => witness_bits "old_payload" (bytes_bits (op_payload p))
                   | None => witness_bits "base_payload" (base_payload (vc_inner self))
                   end ;;
    namespace "constrain old_payload if base case"
      (foldM (fun (_ : unit) '(bit, old) => constrain_payload_bit one base_case bit old)
             (combine (base_payload (vc_inner self)) old_payload) tt) ;;;
    old_leftovers1 <- witness_bits "old_proof"
      (match vc_proof self with
       | Some p => bytes_bits (leftovers_to_bytes (op_oldproof1 p)) | None => repeat false (leftovers_bits k) end) ;;
    old <- unwrap (match vc_proof self with Some p => Some (op_deferred p) | None => deferred_dummy k end) ;;
    old_deferred <- witness_bits "old_deferred" (bytes_bits (deferred_to_bytes old)) ;;
    assert_ (length old_deferred =? length deferred) ;;;
    gens <- unwrap (slice_from (p_generators_xy (vc_params self)) 2) ;;
    k_commitment <- namespace "k_commitment"
      (commit_bits one gens (old_payload ++ old_leftovers1 ++ leftovers1 ++ old_deferred) k_commitment) ;;
    namespace "verify deferred" (verify_deferred one k old_deferred) ;;;
    namespace "verify proof" (g_verify_proof_with chain self base_case k_commitment old_leftovers1 deferred leftovers2) ;;;
    (dc <- bits_at deferred (256 * 8) (128 * k) ;;
     oc <- unwrap (slice_from old_leftovers1 (256 * 4 + 128)) ;;
     namespace "deferred[challeges] == old_leftovers1[challenges]" (equal_unless_base_case one base_case dc oc)) ;;;
    (dy <- bits_at deferred (128 * 1) 128 ;;
     oy <- bits_at old_leftovers1 (256 * 2) 128 ;;
     namespace "deferred[y_old] == old_leftovers1[y_old]" (equal_unless_base_case one base_case dy oy)) ;;;
    namespace "inner circuit" (inner_synthesize (vc_inner self) one old_payload payload_bits).
End Cheat.
