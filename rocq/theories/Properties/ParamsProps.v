(** C23, C45, C53: the parameters, commitments and the evaluations of s(X, Y) of
    src/proofs.rs.  The specifications are Spec/UtilSpec.v (sums, polynomials) and
    Spec/SystemSpec.v (the system of constraints of a circuit).  [Done] is a
    normal end, [Panicked] a panic, [Running] more iterations than allowed. *)
From Coq Require Import ZArith List Bool Arith Lia.
From Verif Require Import Model.FieldTrait Model.FieldInst Model.Circuits Model.Curve Model.Threads Model.Util Model.Params
  Spec.FieldSpec Spec.FieldLaws Spec.CircuitSpec Spec.CurveSpec Spec.CurveLaws Spec.UtilSpec Spec.SystemSpec
  Proofs.CurveInst Proofs.CurveTop Proofs.UtilTop Proofs.EccTop Proofs.ExampleP Proofs.ParamsP Proofs.ParamsTop.
Import ListNotations.
Open Scope nat_scope. Open Scope list_scope.
Notation represents := CurveSpec.represents.

(** C23: [commit] and [compute_opening] read a vector as the coefficients of the
    same polynomial: from generator 0 and power 0, or (right edge) up to the last
    generator and its power.  [commit] panics exactly for too long vectors. *)
Theorem C23_commit_opening : forall C r, halo_curve C r -> forall M, machine_ok M ->
  forall (P : Params C) As, Forall2 represents (p_generators P) As -> (Z.of_nat (length (p_generators P)) < 2 ^ 32)%Z ->
  forall (v : list (Scalar C)) (right_edge : bool), length v <= length (p_generators P) ->
  let offset := if right_edge then length (p_generators P) - length v else 0 in
  (exists D A, commit M P v right_edge = Some D /\ represents D A /\
     sum_of_multiples v (firstn (length v) (skipn offset As)) A) /\
  (forall x, compute_opening P v x right_edge = Some (fsum (fun i => fmul (coeff v i) (fpow x (offset + i))) (length v))).
Proof. exact commit_any. Qed.
Theorem C23_commit_panics : forall (C : Curve) M (P : Params C) v right_edge,
  commit M P v right_edge = None <-> length (p_generators P) < length v.
Proof. exact @commit_panics. Qed.

(** C45: the coefficients in X of x^n s(X, y) and those in Y of s(x, Y), for the
    system of constraints [s] of the circuit. *)
Theorem C45_s_evaluations : forall C r, halo_curve C r ->
  forall (P : Params C) circuit s, laid_out false circuit s -> l_gates s <= p_n P ->
  forall (x xi y : Scalar C) Q, fmul x xi = fone ->
  exists sx sy, compute_sx P circuit y = Done (Ok sx) /\ compute_sy P circuit x (p_n P) Q = Done (Ok sy) /\
    length sx = 3 * p_n P + 1 /\ length sy = S (length (l_lcs s)) /\
    eval_at sx x = fmul (fpow x (p_n P)) (s_value (p_n P) (l_lcs s) x xi y) /\ eval_at sy y = s_value (p_n P) (l_lcs s) x xi y.
Proof. exact sx_sy_any. Qed.

(** C53: [Params::new] with any random bytes: 2^k points of the curve other than
    the identity with their coordinates, each the first of its stream of random
    bytes that decodes; it panics only for k <= 3 or if 32 random bytes are all 0. *)
Theorem C53_params_new : forall C r, halo_curve C r -> forall rng fuel k (P : Params C),
  (forall i j, random (rng i j)) -> params_new rng fuel k = Done P ->
  3 < k /\ p_k P = k /\ p_d P = 2 ^ k /\ 4 * p_n P = 2 ^ k /\ length (p_generators P) = 2 ^ k /\
  Forall2 (fun G xy => represents G (Some xy)) (p_generators P) (p_generators_xy P) /\
  forall i G, nth_error (p_generators P) i = Some G ->
    exists j, c_from_bytes (rng i j) = Some G /\ forall j', j' < j -> c_from_bytes (c:=C) (rng i j') = None.
Proof.
  intros C r [|] rng fuel k P; [exact (params_new_done Ec0_laws rng fuel k P)|exact (params_new_done Ec1_laws rng fuel k P)].
Qed.
Theorem C53_params_new_panics : forall C r, halo_curve C r -> forall rng fuel k,
  (forall i j, random (rng i j)) -> params_new (C := C) rng fuel k = Panicked -> k <= 3 \/ exists i j, rng i j = repeat 0%Z 32.
Proof.
  intros C r [|] rng fuel k; [exact (params_new_panics Ec0_laws z_one0 rng fuel k)|exact (params_new_panics Ec1_laws z_one1 rng fuel k)].
Qed.

(** *** The hypotheses are met *)
Definition machine3 : Machine := {| cpus := 3; sched := fun site => [1; 2; 2; 1; 7; 2]; ln_ceil := Nat.log2 |}.
Definition two_generators : Params Ec0 := mkParams c_one 2 1 1 [c_one; c_zero] [].
Example commit_case : exists D A, commit machine3 two_generators [f_from_u64 5] true = Some D /\
  represents D A /\ sum_of_multiples (C := Ec0) [f_from_u64 5] [infinity] A.
Proof.
  exact (proj1 (C23_commit_opening Ec0 _ halo_ec0 _ machine3_top two_generators _ points_example eq_refl [f_from_u64 5] true (le_S _ _ (le_n 1)))).
Qed.
(** any parameters with room for two gates: the circuit of a square *)
Example s_case : forall (P : Params Ec0) w, 2 <= p_n P -> laid_out false (square_circuit w)
    (mkLayout None 2 square_lcs [1; 2] [fzero; fzero] [fzero; fzero] [fzero; fzero] [fmul fzero fzero; fzero] : layout (Scalar Ec0)) /\ 2 <= p_n P.
Proof. intros P w H. split; [exact (square_false w)|exact H]. Qed.
Example params_case : forall k, 3 < k -> (forall i j, random (gen_bytes i j)) /\ exists P, params_new (C := Ec0) gen_bytes 1 k = Done P.
Proof. intros k Hk. split; [exact gen_bytes_random|exact (params_exist k Hk)]. Qed.

Print Assumptions C23_commit_opening.
Print Assumptions C23_commit_panics.
Print Assumptions C45_s_evaluations.
Print Assumptions C53_params_new.
Print Assumptions C53_params_new_panics.
