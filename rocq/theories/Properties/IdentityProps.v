(** C46: the polynomial identity behind [Proof::new] and the deferred check.
    [prover_constant] (Spec/ProofSpec.v) is the constant coefficient of t(X, y);
    [satisfied] and [k_value] are in Spec/SystemSpec.v. *)
From Coq Require Import ZArith List Bool Arith Lia.
From Verif Require Import Model.FieldTrait Model.FieldInst Model.Circuits Model.Curve Model.Threads Model.Util Model.Params Model.Proofs
  Spec.FieldSpec Spec.FieldLaws Spec.CircuitSpec Spec.CurveSpec Spec.CurveLaws Spec.UtilSpec Spec.SystemSpec Spec.ProofSpec
  Proofs.FpFq Proofs.CurveInst Proofs.CurveTop Proofs.UtilTop Proofs.ExampleP Proofs.IdentityTop.
Import ListNotations.
Open Scope nat_scope. Open Scope list_scope.

(** A circuit that is laid out the same with and without its witness, and fits. *)
Definition fits {C} (P : Params C) (circuit : Var -> CS (Scalar C) unit) (s : layout (Scalar C)) : Prop :=
  laid_out true circuit s /\ (exists t, laid_out false circuit t /\ same_system s t) /\
  l_gates s <= p_n P /\ (Z.of_nat (7 * p_n P + 1) <= 2 ^ 31)%Z.

(** The constant coefficient is a sum of the errors of the gates and of the
    values of the linear constraints with separate powers of y. *)
Theorem C46_constant : forall C r, halo_curve C r -> forall M, machine_ok M -> forall (P : Params C) circuit s, fits P circuit s ->
  forall y yi, fmul y yi = fone -> exists c, prover_constant M P circuit s y c /\
    c = fadd (sum_q (fun i => fmul (fsub (fmul (wire (l_a s) i) (wire (l_b s) i)) (wire (l_c s) i)) (fadd (fpow y i) (fpow yi i))) (l_gates s))
             (fmul (fpow y (p_n P)) (sum_q (fun q => fmul (fpow y q) (lc_val (wires (l_a s) (l_b s) (l_c s)) (lc_number (l_lcs s) q))) (length (l_lcs s)))).
Proof.
  intros C r [|] M HM P circuit s (H1 & (t & H2 & H3) & H4 & H5).
  - exact (constant_top Ec0_laws M P circuit s t HM H1 H2 H3 H4 H5).
  - exact (constant_top Ec1_laws M P circuit s t HM H1 H2 H3 H4 H5).
Qed.
(** It equals y^n k(y) for every challenge y exactly when the system is satisfied. *)
Theorem C46_identity : forall C r, halo_curve C r -> forall M, machine_ok M -> forall (P : Params C) circuit s, fits P circuit s ->
  (Z.of_nat (length (l_lcs s)) < 2 ^ 64)%Z ->
  (satisfied s <-> forall y, y <> fzero -> prover_constant M P circuit s y (fmul (fpow y (p_n P)) (k_value (l_inputs s) (l_values s) (length (l_lcs s)) y))).
Proof.
  intros C r [|] M HM P circuit s (H1 & (t & H2 & H3) & H4 & H5).
  - exact (identity_iff Ec0_laws M P circuit s t HM H1 H2 H3 H4 H5).
  - exact (identity_iff Ec1_laws M P circuit s t HM H1 H2 H3 H4 H5).
Qed.
(** An unsatisfied system passes for at most 2 n + Q challenges. *)
Theorem C46_few_challenges : forall C r, halo_curve C r -> forall M, machine_ok M -> forall (P : Params C) circuit s, fits P circuit s ->
  forall ys, NoDup ys -> 2 * p_n P + length (l_lcs s) < length ys ->
  (forall y, In y ys -> prover_constant M P circuit s y (fmul (fpow y (p_n P)) (k_value (l_inputs s) (l_values s) (length (l_lcs s)) y))) -> satisfied s.
Proof.
  intros C r [|] M HM P circuit s (H1 & (t & H2 & H3) & H4 & H5).
  - exact (identity_few Ec0_laws M P circuit s t HM H1 H2 H3 H4 H5).
  - exact (identity_few Ec1_laws M P circuit s t HM H1 H2 H3 H4 H5).
Qed.
(** The deferred check of true openings at x is that same equation. *)
Theorem C46_deferred : forall C r, halo_curve C r -> forall M, machine_ok M -> forall (P : Params C) circuit s, fits P circuit s ->
  forall k y c (D : Deferred (Scalar C)) rp sx tx yi x xi, 2 <= k -> 2 ^ k = 4 * p_n P -> length (p_generators P) = 4 * p_n P ->
  fmul x xi = fone -> fmul y yi = fone ->
  let rx := rx_poly (p_n P) s in
  compute_sx P circuit y = Done (Ok sx) -> prime_poly (p_n P) rx sx y yi = Some rp -> multiply_polynomials M rx rp = Some tx ->
  nth_error tx (4 * p_n P) = Some c ->
  d_x D = x -> d_y_cur D = y ->
  compute_opening P (skipn (4 * p_n P + 1) tx) x false = Some (d_tx_positive_opening D) ->
  compute_opening P (firstn (4 * p_n P) tx) x false = Some (d_tx_negative_opening D) ->
  compute_opening P sx x false = Some (d_sx_cur_opening D) ->
  compute_opening P rx x true = Some (d_rx_opening D) -> compute_opening P rx (fmul x y) true = Some (d_rxy_opening D) ->
  exists lhs rhs, deferred_compute D k = Some (lhs, rhs) /\ (lhs = rhs <-> c = fmul (fpow y (p_n P)) (d_ky_opening D)).
Proof.
  intros C r [|] M HM P circuit s (H1 & (t & H2 & H3) & H4 & H5).
  - exact (deferred_top Ec0_laws M P circuit s t HM H1 H2 H3 H4 H5).
  - exact (deferred_top Ec1_laws M P circuit s t HM H1 H2 H3 H4 H5).
Qed.

(** *** The hypotheses are met: the circuit of a square *)
Example square_fits : forall (P : Params Ec0) x, p_n P = 4 -> fits P (square_circuit (Ok x)) (square_layout x) /\ satisfied (square_layout x).
Proof.
  intros P x H. split; [|exact (square_satisfied (fl_ops _ _ _ Fp_laws) x)].
  split; [exact (square_true x)|]. split; [eexists; split; [exact (square_false (Ok x))|repeat split]|]. rewrite H. cbn [l_gates square_layout].
  split; [repeat constructor|]. cbv. intro X. discriminate X.
Qed.

Print Assumptions C46_constant.
Print Assumptions C46_identity.
Print Assumptions C46_few_challenges.
Print Assumptions C46_deferred.
