(** Properties C10-C16: the two curves.  The specification is Spec/CurveSpec.v:
    points in affine coordinates, chord-and-tangent sums, n-fold sums, and when a
    projective triple of the code stands for a point. *)
From Coq Require Import ZArith List.
From Verif Require Import Model.FieldTrait Model.FieldInst Model.Curve Spec.FieldLaws Spec.CurveSpec Spec.CurveLaws
  Proofs.CurveInst Proofs.CurveTop.
Import ListNotations.
Open Scope Z_scope.

(** C10: [+], [double], [-] compute the chord-and-tangent law in every case. *)
Theorem C10_point_arithmetic : forall C r, halo_curve C r -> forall (P Q : C) A B,
  represents P A -> represents Q B ->
  (exists D, sum_of A B D) /\ (forall D, sum_of A B D -> represents (c_add P Q) D) /\
  (forall D, sum_of A A D -> represents (c_double P) D) /\
  represents (c_neg P) (opposite A) /\
  (forall D, sum_of A (opposite B) D -> represents (c_sub P Q) D).
Proof.
  intros C r [|] P Q A B HP HQ.
  - destruct (add_top Ec0_laws P Q A B HP HQ) as [H1 H2].
    exact (conj H1 (conj H2 (conj (double_top Ec0_laws P A HP) (conj (neg_top Ec0_laws P A HP) (sub_top Ec0_laws P Q A B HP HQ))))).
  - destruct (add_top Ec1_laws P Q A B HP HQ) as [H1 H2].
    exact (conj H1 (conj H2 (conj (double_top Ec1_laws P A HP) (conj (neg_top Ec1_laws P A HP) (sub_top Ec1_laws P Q A B HP HQ))))).
Qed.

(** C11: an abelian group, closed under every operation. *)
Theorem C11_closed : forall C r, halo_curve C r ->
  valid (c_zero : C) /\ valid (c_one : C)
  /\ (forall P Q : C, valid P -> valid Q -> valid (c_add P Q) /\ valid (c_sub P Q))
  /\ (forall P : C, valid P -> valid (c_neg P) /\ valid (c_double P) /\ forall s, valid (c_mul P s)).
Proof. intros C r [|]; [exact (valid_top Ec0_laws)|exact (valid_top Ec1_laws)]. Qed.
Theorem C11_group : forall C r, halo_curve C r -> forall P Q R : C, valid P -> valid Q -> valid R ->
  same_point (c_add (c_add P Q) R) (c_add P (c_add Q R)) /\ same_point (c_add P Q) (c_add Q P)
  /\ same_point (c_add P c_zero) P /\ same_point (c_add c_zero P) P
  /\ same_point (c_add P (c_neg P)) c_zero /\ same_point (c_sub P Q) (c_add P (c_neg Q))
  /\ same_point (c_double P) (c_add P P).
Proof. intros C r [|]; [exact (group_top Ec0_laws)|exact (group_top Ec1_laws)]. Qed.
Theorem C11_congruence : forall C r, halo_curve C r -> forall (P P' Q Q' R : C) s,
  (valid P -> same_point P P /\ (same_point P Q -> same_point Q P) /\ (same_point P Q -> same_point Q R -> same_point P R))
  /\ (same_point P P' -> same_point Q Q' -> same_point (c_add P Q) (c_add P' Q') /\ same_point (c_mul P s) (c_mul P' s)).
Proof.
  intros C r [|] P P' Q Q' R s.
  - exact (conj (same_equiv Ec0_laws P Q R) (same_cong Ec0_laws P P' Q Q' s)).
  - exact (conj (same_equiv Ec1_laws P Q R) (same_cong Ec1_laws P P' Q Q' s)).
Qed.

(** C12: [P * s] is the s-fold sum; the action is linear; the group is cyclic of
    the order promised by the scalar field, generated by [one]. *)
Theorem C12_multiple : forall C r, halo_curve C r -> forall (P : C) A (s : Scalar C), represents P A ->
  (exists D, multiple A (scalar_nat s) D) /\ forall D, multiple A (scalar_nat s) D -> represents (c_mul P s) D.
Proof. intros C r [|]; [exact (mul_top Ec0_laws)|exact (mul_top Ec1_laws)]. Qed.
Theorem C12_linear : forall C r, halo_curve C r -> forall (P Q : C) (a b : Scalar C), valid P -> valid Q ->
  same_point (c_mul P (fadd a b)) (c_add (c_mul P a) (c_mul P b))
  /\ same_point (c_mul P (fmul a b)) (c_mul (c_mul P a) b)
  /\ same_point (c_mul (c_add P Q) a) (c_add (c_mul P a) (c_mul Q a))
  /\ same_point (c_mul P fone) P /\ same_point (c_mul P fzero) c_zero
  /\ same_point (c_mul P (fneg a)) (c_neg (c_mul P a)).
Proof. intros C r [|]; [exact (action_top Ec0_laws)|exact (action_top Ec1_laws)]. Qed.
Theorem C12_order : forall C r, halo_curve C r -> forall (P : C) A, represents P A -> multiple A (Z.to_nat r) infinity.
Proof. intros C r [|]; [exact (order_top Ec0_laws)|exact (order_top Ec1_laws)]. Qed.
Theorem C12_generated : forall C r, halo_curve C r ->
  (forall P : C, valid P -> exists s, same_point P (c_mul c_one s)) /\
  (forall s t : Scalar C, same_point (c_mul (c_one : C) s) (c_mul c_one t) -> s = t).
Proof.
  intros C r [|].
  - exact (conj (generated_top Ec0_laws) (faithful_top Ec0_laws)).
  - exact (conj (generated_top Ec1_laws) (faithful_top Ec1_laws)).
Qed.

(** C13: what [==] decides: the left operand is the identity, or the points are
    equal.  It is not equality: the second theorem. *)
Theorem C13_eq_exact : forall C r, halo_curve C r -> forall (P Q : C) A B, represents P A -> represents Q B ->
  (c_eqb P Q = true <-> A = infinity \/ A = B).
Proof. intros C r [|]; [exact (cl_eqb _ _ _ _ _ Ec0_laws)|exact (cl_eqb _ _ _ _ _ Ec1_laws)]. Qed.
Theorem C13_equality_refuted : forall C r, halo_curve C r -> exists P Q : C,
  valid P /\ valid Q /\ ~ same_point P Q /\ c_eqb P Q = true /\ c_eqb Q P = false.
Proof. intros C r [|]; [exact (eq_refuted Ec0_laws)|exact (eq_refuted Ec1_laws)]. Qed.

(** C14: compression. *)
Theorem C14_decode_encode : forall C r, halo_curve C r -> forall (P : C) A, represents P A ->
  exists Q : C, c_from_bytes (c_to_bytes P) = Some Q /\ represents Q A.
Proof. intros C r [|]; [exact (cl_decode_encode _ _ _ _ _ Ec0_laws)|exact (cl_decode_encode _ _ _ _ _ Ec1_laws)]. Qed.
Theorem C14_encode_decode : forall C r, halo_curve C r -> forall bs (Q : C),
  length bs = 32%nat -> Forall byte bs -> c_from_bytes bs = Some Q -> valid Q /\ c_to_bytes Q = bs.
Proof. intros C r [|]; [exact (cl_encode_decode _ _ _ _ _ Ec0_laws)|exact (cl_encode_decode _ _ _ _ _ Ec1_laws)]. Qed.
Theorem C14_encode_shape : forall C r, halo_curve C r -> forall (P : C) A, represents P A ->
  length (c_to_bytes P) = 32%nat /\ Forall byte (c_to_bytes P).
Proof. intros C r [|]; [exact (cl_encode_shape _ _ _ _ _ Ec0_laws)|exact (cl_encode_shape _ _ _ _ _ Ec1_laws)]. Qed.

(** C15: affine coordinates. *)
Theorem C15_get_xy : forall C r, halo_curve C r -> forall (P : C) A, represents P A ->
  c_get_xy P = A /\ on_curve (c_b C) A.
Proof. intros C r [|]; [exact (get_xy_top Ec0_laws)|exact (get_xy_top Ec1_laws)]. Qed.
Theorem C15_from_xy : forall C r, halo_curve C r -> forall x y,
  (on_curve (c_b C) (Some (x, y)) ->
     exists P : C, c_from_xy x y = Some P /\ represents P (Some (x, y)) /\ c_get_xy P = Some (x, y))
  /\ (x = fzero /\ y = fzero -> exists P : C, c_from_xy x y = Some P /\ represents P infinity)
  /\ (~ on_curve (c_b C) (Some (x, y)) -> ~ (x = fzero /\ y = fzero) -> @c_from_xy C x y = None).
Proof. intros C r [|]; [exact (from_xy_top Ec0_laws)|exact (from_xy_top Ec1_laws)]. Qed.
(** the convention for the identity does not collide with a point *)
Theorem C15_zero_not_on_curve : forall C r, halo_curve C r -> ~ on_curve (c_b C) (Some (fzero, fzero)).
Proof. intros C r [|]; [exact (zero_not_on Ec0_laws)|exact (zero_not_on Ec1_laws)]. Qed.

(** C16: the endomorphism. *)
Theorem C16_endomorphism : forall C r, halo_curve C r -> forall (P : C) x y, represents P (Some (x, y)) ->
  represents (c_mul P (BETA_SCALAR C)) (Some (fmul (BETA_BASE C) x, y)).
Proof. intros C r [|]; [exact (endo_top Ec0_laws)|exact (endo_top Ec1_laws)]. Qed.
Theorem C16_identity : forall C r, halo_curve C r -> forall P : C, represents P infinity ->
  represents (c_mul P (BETA_SCALAR C)) infinity.
Proof. intros C r [|]; [exact (endo_zero_top Ec0_laws)|exact (endo_zero_top Ec1_laws)]. Qed.

(** Concrete cases meeting the hypotheses: the generator (a point that is not the
    identity), its opposite, its double and the identity are represented; so are
    other projective representatives of the same point. *)
Example generator0 : represents (c_one : Ec0) (Some (fone, ec0_Gy)).
Proof. exact gen0_rep. Qed.
Example generator1 : represents (c_one : Ec1) (Some (fone, ec1_Gy)).
Proof. exact gen1_rep. Qed.
Example tangent_case : exists D, sum_of (Some (fone, ec0_Gy)) (Some (fone, ec0_Gy)) (Some D)
  /\ represents (c_double (c_one : Ec0)) (Some D).
Proof. exact (tangent_example Ec0_laws _ _ generator0). Qed.
Example opposite_case : represents (c_add (c_one : Ec0) (c_neg c_one)) infinity.
Proof.
  apply (proj1 (proj2 (C10_point_arithmetic Ec0 _ halo_ec0 _ _ _ _ generator0 (neg_top Ec0_laws _ _ generator0)))).
  apply sum_opposite.
Qed.
Example other_representative : represents (c_sub (c_double c_one) (c_one : Ec0)) (Some (fone, ec0_Gy)).
Proof. exact (other_rep_example Ec0_laws _ _ generator0). Qed.
Example encoding_decodes : exists bs Q, length bs = 32%nat /\ Forall byte bs /\ c_from_bytes bs = Some (Q : Ec0) /\ c_is_zero Q = false.
Proof. exact (decode_example Ec0_laws _ _ generator0). Qed.

Print Assumptions C10_point_arithmetic.
Print Assumptions C11_closed.
Print Assumptions C11_group.
Print Assumptions C11_congruence.
Print Assumptions C12_multiple.
Print Assumptions C12_linear.
Print Assumptions C12_order.
Print Assumptions C12_generated.
Print Assumptions C13_eq_exact.
Print Assumptions C13_equality_refuted.
Print Assumptions C14_decode_encode.
Print Assumptions C14_encode_decode.
Print Assumptions C14_encode_shape.
Print Assumptions C15_get_xy.
Print Assumptions C15_from_xy.
Print Assumptions C15_zero_not_on_curve.
Print Assumptions C16_endomorphism.
Print Assumptions C16_identity.
