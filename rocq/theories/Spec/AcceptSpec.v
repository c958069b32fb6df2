(** What makes [RecursiveProof::verify] accept, independently of the code. *)
From Coq Require Import ZArith List Bool Arith.
From Verif Require Import Model.FieldTrait Model.Circuits Model.Curve Model.Util Model.Params Model.Opening Model.Proofs Model.Recursion Model.RecursiveProof
  Spec.FieldLaws Spec.CircuitSpec Spec.CurveSpec Spec.BoolSpec Spec.UtilSpec Spec.SystemSpec Spec.ProofSpec Spec.VerifySpec Spec.UniformSpec Spec.ChainSpec.
Import ListNotations.
Open Scope nat_scope. Open Scope list_scope.

(** Packed challenges that have square roots when they are unpacked *)
Definition rooted_all {F : Field} (packed : list F) : Prop := Forall (fun pk => f_sqrt (get_challenge_scalar (F2 := F) pk) <> None) packed.
(** Deferred data that can be checked, and what is checked *)
Definition checkable_deferred {F : Field} (D : Deferred F) : Prop :=
  d_x D <> fzero /\ d_y_cur D <> fzero /\ d_challenges_sq_packed_old D <> [] /\ d_challenges_sq_packed_new D <> [] /\
  rooted_all (d_challenges_sq_packed_old D ++ d_challenges_sq_packed_new D).
Definition true_deferred {F : Field} (k : nat) (D : Deferred F) : Prop :=
  let old := d_challenges_sq_packed_old D in let new := d_challenges_sq_packed_new D in
  (exists xi yi, fmul (d_x D) xi = fone /\ fmul (d_y_cur D) yi = fone /\ deferred_equation (2 ^ (k - 2)) D xi yi) /\
  powers_fold_to old (d_x D) (d_gx_old_opening D) /\
  powers_fold_to new (d_x D) (d_b_x D) /\ powers_fold_to new (fmul (d_x D) (d_y_cur D)) (d_b_xy D) /\
  powers_fold_to new (d_y_old D) (d_b_y_old D) /\ powers_fold_to new (d_y_cur D) (d_b_y_cur D) /\
  powers_fold_to new (d_y_new D) (d_b_y_new D).
(** Leftovers that can be checked, and what is checked: [g_new] and [s_new_commitment]
    are what they should be, unless that is the point at infinity. *)
Definition checkable_leftovers {C : Curve} (P : Params C) (L : Leftovers C) : Prop :=
  length (challenges_sq_packed_new L) = p_k P /\ rooted_all (challenges_sq_packed_new L).
Definition true_leftovers {C : Curve} (P : Params C) (circuit : Var -> CS (Scalar C) unit) (L : Leftovers C) : Prop :=
  exists g sx D, folds_to (p_generators P) (challenges_sq_packed_new L) g /\
    compute_sx P circuit (y_new L) = Done (Ok sx) /\ commitment_to (p_generators P) false sx D /\
    (represents g infinity \/ same_point g (g_new L)) /\ (represents D infinity \/ same_point D (s_new_commitment L)).

Section Accept.
  Context {E1 E2 : Curve} (cy : Cycle E1 E2).
  (** A recursive proof of curve points with the shape that the parameters ask for *)
  Definition well_formed_recursive (P1 : Params E1) (p : RecursiveProof E1 E2) : Prop :=
    well_formed_proof (p_k P1) (rp_proof p) (rp_oldproof1 p) /\
    valid (s_new_commitment (rp_oldproof2 p)) /\ valid (g_new (rp_oldproof2 p)).
  (** The public inputs: 1, and the bits of the payload, the two leftovers and the deferred data.
      [K] is the commitment to them at the generators 1, 2, 3, ..; [k] the polynomial that has
      them at the numbers of the circuit's input constraints. *)
  Definition public_inputs (p : RecursiveProof E1 E2) : list (Scalar E1) := map of_bit (proof_bits p).
  Definition input_commitment (P1 : Params E1) (p : RecursiveProof E1 E2) (K : E1) : Prop :=
    commitment_to (p_generators P1) false (fzero :: fone :: public_inputs p) K.
  Definition input_polynomial (t : layout (Scalar E1)) (p : RecursiveProof E1 E2) (k : list (Scalar E1)) : Prop :=
    forall i, coeff k i = input_at (l_inputs t) (fone :: public_inputs p) i.
  (** Everything that [verify] checks; [good], [L'] and [D] are the results of
      [Proof::verify]. *)
  Definition all_checks (P1 : Params E1) (P2 : Params E2) (c : BothCircuits E1 E2) (p : RecursiveProof E1 E2)
      (good : bool) (L' : Leftovers E1) (D : Deferred (Scalar E1)) : Prop :=
    good = true /\
    true_deferred (p_k P2) (rp_deferred p) /\ true_deferred (p_k P1) D /\
    true_leftovers P1 (step_circuit cy P2 c (rp_payload p)) L' /\
    true_leftovers P2 (step_circuit (swap cy) P1 (swap_circuits c) (rp_payload p)) (rp_oldproof2 p).
End Accept.
(** [t1] is the system of constraints of the circuit as the verifier builds it. *)
Definition can_be_verified {E1 E2 : Curve} (cy : Cycle E1 E2) (P1 : Params E1) (P2 : Params E2) (c : BothCircuits E1 E2)
    (p : RecursiveProof E1 E2) (t1 : layout (Scalar E1)) : Prop :=
  good_params P1 /\ good_params P2 /\ 2 <= p_k P1 /\ 2 <= p_k P2 /\ well_formed_recursive P1 p /\
  laid_out false (step_circuit cy P2 c (rp_payload p)) t1 /\
  (exists t2, laid_out false (step_circuit (swap cy) P1 (swap_circuits c) (rp_payload p)) t2) /\
  length (proof_bits p) = length (l_inputs t1) - 1 /\ length (l_lcs t1) < p_d P1 /\ 2 + length (proof_bits p) <= p_d P1.
