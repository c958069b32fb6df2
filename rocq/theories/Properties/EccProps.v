(** C39-C44: the curve gadgets of src/gadgets/ecc.rs, over both curves.

    [cp_is w P A]: under the assignment [w] the wires of [P] hold the point [A]
    ((0, 0) and flag 1 for the identity); [cp_has w P A]: moreover the prover's
    values agree.  [sound w m Q]: whenever [w] satisfies what the gadget [m]
    emitted, [Q] holds of its output, whatever the prover did.  [complete w m Q]:
    the honest prover's assignment [w] satisfies everything and [Q] holds. *)
From Coq Require Import ZArith List Bool Arith Lia.
From Verif Require Import Model.FieldTrait Model.FieldInst Model.Circuits Model.Num Model.Boolean Model.Curve Model.Util Model.Ecc
  Spec.FieldSpec Spec.FieldLaws Spec.CircuitSpec Spec.NumSpec Spec.BoolSpec Spec.CurveSpec Spec.CurveLaws Spec.UtilSpec Spec.EccSpec
  Proofs.FpFq Proofs.CurveInst Proofs.CurveTop Proofs.UtilTop Proofs.HonestP Proofs.EccP Proofs.EccAddP Proofs.EccMulP Proofs.EccRefP Proofs.EccTop.
Import ListNotations.
Open Scope nat_scope. Open Scope list_scope.
Notation represents := CurveSpec.represents.

(** C39: conditional negation and endomorphism. *)
Theorem C39_conditional_neg : forall C r, halo_curve C r -> forall (w : assignment (Base C)) (one : Var), w one = fone ->
  forall (P : CurvePoint C) A (c : Boolean) (b : bool),
  (cp_is w P A -> bool_is w c b -> sound w (cp_conditional_neg one P c) (fun R => cp_is w R (if b then opposite A else A))) /\
  (cp_has w P A -> bool_has w c b -> complete w (cp_conditional_neg one P c) (fun R => cp_has w R (if b then opposite A else A))).
Proof.
  intros C r [|] w one w1 P A c b.
  - exact (conj (conditional_neg_sound Ec0_laws one w w1 P A c b) (conditional_neg_complete Ec0_laws one w w1 P A c b)).
  - exact (conj (conditional_neg_sound Ec1_laws one w w1 P A c b) (conditional_neg_complete Ec1_laws one w w1 P A c b)).
Qed.
Theorem C39_conditional_endo : forall C r, halo_curve C r -> forall (w : assignment (Base C)) (one : Var), w one = fone ->
  forall (P : CurvePoint C) A (c : Boolean) (b : bool),
  (cp_is w P A -> bool_is w c b -> sound w (cp_conditional_endo one P c) (fun R => cp_is w R (if b then endo A else A))) /\
  (cp_has w P A -> bool_has w c b -> complete w (cp_conditional_endo one P c) (fun R => cp_has w R (if b then endo A else A))).
Proof.
  intros C r [|] w one w1 P A c b.
  - exact (conj (conditional_endo_sound Ec0_laws one w w1 P A c b base_beta0) (conditional_endo_complete Ec0_laws one w w1 P A c b base_beta0)).
  - exact (conj (conditional_endo_sound Ec1_laws one w w1 P A c b base_beta1) (conditional_endo_complete Ec1_laws one w w1 P A c b base_beta1)).
Qed.

(** C40: a witnessed point has a boolean flag, and is on the curve if the flag is
    0; if it is 1, the coordinates are free. *)
Theorem C40_witness_sound : forall C r, halo_curve C r -> forall (w : assignment (Base C)) (one : Var), w one = fone ->
  forall p : res C, sound w (cp_witness one p) (fun R => exists b, bool_is w (cp_id R) b /\
    (b = false -> cp_is w R (Some (n_val w (cp_x R), n_val w (cp_y R))))).
Proof. intros C r [|] w one w1 p; [exact (witness_sound Ec0_laws one w w1 p)|exact (witness_sound Ec1_laws one w w1 p)]. Qed.
Theorem C40_witness_complete : forall C r, halo_curve C r -> forall (w : assignment (Base C)) (one : Var), w one = fone ->
  forall (p : C) A, represents p A -> complete w (cp_witness one (Ok p)) (fun R => cp_has w R A).
Proof. intros C r [|] w one w1 p A; [exact (witness_complete Ec0_laws one w w1 p A)|exact (witness_complete Ec1_laws one w w1 p A)]. Qed.
Theorem C40_identity_coordinates_refuted : forall C r, halo_curve C r -> forall X Y : Base C,
  exists w tr (R : CurvePoint C), w (VA 1) = fone /\ Exec (cp_witness (VA 1) (Err AssignmentMissing)) tr (Some (Ok R)) /\
  constraints_hold w tr /\ n_val w (cp_x R) = X /\ n_val w (cp_y R) = Y /\ bool_is w (cp_id R) true.
Proof. intros C r [|] X Y; [exact (witness_any Ec0_laws X Y)|exact (witness_any Ec1_laws X Y)]. Qed.

(** C41: the honest prover gets the sum from [add_incomplete], or an error when
    the abscissas agree; but a satisfying assignment may give the output any
    coordinates at all. *)
Theorem C41_add_incomplete_complete : forall C r, halo_curve C r -> forall (w : assignment (Base C)) (one : Var), w one = fone ->
  forall (P Q : CurvePoint C) A B S, cp_has w P A -> cp_has w Q B -> sum_of A B S ->
  (A = infinity /\ B = infinity) \/ (A <> infinity /\ B <> infinity /\ A <> B /\ A <> opposite B) ->
  complete w (cp_add_incomplete one P Q) (fun R => cp_has w R S).
Proof.
  intros C r [|] w one w1 P Q A B S.
  - exact (add_incomplete_complete Ec0_laws one w w1 P Q A B S).
  - exact (add_incomplete_complete Ec1_laws one w w1 P Q A B S).
Qed.
Theorem C41_add_incomplete_division : forall C r, halo_curve C r -> forall (w : assignment (Base C)) (one : Var) (P Q : CurvePoint C),
  n_value (cp_x P) <> None -> n_value (cp_y P) <> None -> n_value (cp_y Q) <> None ->
  n_value (cp_x Q) = n_value (cp_x P) -> bool_value (cp_id P) <> Some true ->
  forall tr res, Exec (cp_add_incomplete one P Q) tr res -> witnessed w tr -> res = Some (Err DivisionByZero).
Proof.
  intros C r [|] w one P Q.
  - exact (add_incomplete_division Ec0_laws one w P Q).
  - exact (add_incomplete_division Ec1_laws one w P Q).
Qed.
Theorem C41_add_incomplete_refuted : forall C r, halo_curve C r -> forall x1 y1 x2 y2 X Y : Base C,
  on_curve (c_b C) (Some (x1, y1)) -> on_curve (c_b C) (Some (x2, y2)) -> x1 <> x2 ->
  exists w (P Q R : CurvePoint C) tr, w (VA 1) = fone /\ cp_is w P (Some (x1, y1)) /\ cp_is w Q (Some (x2, y2)) /\
  Exec (cp_add_incomplete (VA 1) P Q) tr (Some (Ok R)) /\ constraints_hold w tr /\
  n_val w (cp_x R) = X /\ n_val w (cp_y R) = Y /\ bool_is w (cp_id R) false.
Proof.
  intros C r [|] x1 y1 x2 y2 X Y H1 H2 HX.
  - destruct (add_incomplete_any Ec0_laws x1 y1 x2 y2 X Y H1 H2 HX) as (w & tr & R & H). exists w, (opaque 2), (opaque 3), R, tr. exact H.
  - destruct (add_incomplete_any Ec1_laws x1 y1 x2 y2 X Y H1 H2 HX) as (w & tr & R & H). exists w, (opaque 2), (opaque 3), R, tr. exact H.
Qed.

(** C42: the same for [add] and [add_conditionally]: the honest prover gets the
    sum of any two points; the output is forced when exactly one of them is the
    identity, arbitrary when their abscissas differ, and may be flagged as finite
    when both are the identity. *)
Theorem C42_add_complete : forall C r, halo_curve C r -> forall (w : assignment (Base C)) (one : Var), w one = fone ->
  forall (P Q : CurvePoint C) A B S, cp_has w P A -> cp_has w Q B -> sum_of A B S ->
  complete w (cp_add one P Q) (fun R => cp_has w R S).
Proof.
  intros C r [|] w one w1 P Q A B S.
  - exact (add_complete Ec0_laws one w w1 P Q A B S).
  - exact (add_complete Ec1_laws one w w1 P Q A B S).
Qed.
Theorem C42_add_conditionally_complete : forall C r, halo_curve C r -> forall (w : assignment (Base C)) (one : Var), w one = fone ->
  forall (P Q : CurvePoint C) A B S (c : Boolean) b, cp_has w P A -> cp_has w Q B -> bool_has w c b -> sum_of A B S ->
  complete w (cp_add_conditionally one P Q c) (fun R => cp_has w R (if b then S else A)).
Proof.
  intros C r [|] w one w1 P Q A B S c b.
  - exact (add_cond_complete Ec0_laws one w w1 P Q A B S c b).
  - exact (add_cond_complete Ec1_laws one w w1 P Q A B S c b).
Qed.
Theorem C42_add_identity_sound : forall C r, halo_curve C r -> forall (w : assignment (Base C)) (one : Var), w one = fone ->
  forall (P Q : CurvePoint C) A B S, cp_is w P A -> cp_is w Q B -> sum_of A B S ->
  A = infinity \/ B = infinity -> S <> infinity -> sound w (cp_add one P Q) (fun R => cp_is w R S).
Proof.
  intros C r [|] w one w1 P Q A B S.
  - exact (add_sound_identity Ec0_laws one w w1 P Q A B S).
  - exact (add_sound_identity Ec1_laws one w w1 P Q A B S).
Qed.
Theorem C42_add_refuted : forall C r, halo_curve C r -> forall x1 y1 x2 y2 X Y : Base C,
  on_curve (c_b C) (Some (x1, y1)) -> on_curve (c_b C) (Some (x2, y2)) -> x1 <> x2 ->
  exists w (P Q R : CurvePoint C) tr, w (VA 1) = fone /\ cp_is w P (Some (x1, y1)) /\ cp_is w Q (Some (x2, y2)) /\
  Exec (cp_add (VA 1) P Q) tr (Some (Ok R)) /\ constraints_hold w tr /\
  n_val w (cp_x R) = X /\ n_val w (cp_y R) = Y /\ bool_is w (cp_id R) false.
Proof.
  intros C r [|] x1 y1 x2 y2 X Y H1 H2 HX.
  - destruct (add_any Ec0_laws x1 y1 x2 y2 X Y H1 H2 HX) as (w & tr & R & H). exists w, (opaque 2), (opaque 3), R, tr. exact H.
  - destruct (add_any Ec1_laws x1 y1 x2 y2 X Y H1 H2 HX) as (w & tr & R & H). exists w, (opaque 2), (opaque 3), R, tr. exact H.
Qed.
Theorem C42_add_identities_refuted : forall C r, halo_curve C r ->
  exists w (P Q R : CurvePoint C) tr, w (VA 1) = fone /\ cp_is w P infinity /\ cp_is w Q infinity /\
  Exec (cp_add (VA 1) P Q) tr (Some (Ok R)) /\ constraints_hold w tr /\ bool_is w (cp_id R) false.
Proof.
  intros C r [|].
  - destruct (add_identities Ec0_laws) as (w & tr & R & H). exists w, (opaque 2), (opaque 3), R, tr. exact H.
  - destruct (add_identities Ec1_laws) as (w & tr & R & H). exists w, (opaque 2), (opaque 3), R, tr. exact H.
Qed.

(** C43: doubling, 2A + B as A + (A + B), and conditional incomplete addition. *)
Theorem C43_double : forall C r, halo_curve C r -> forall (w : assignment (Base C)) (one : Var), w one = fone ->
  forall (P : CurvePoint C) A S, sum_of A A S ->
  (cp_is w P A -> sound w (cp_double one P) (fun R => cp_is w R S)) /\
  (cp_has w P A -> complete w (cp_double one P) (fun R => cp_has w R S)).
Proof.
  intros C r [|] w one w1 P A S HS.
  - exact (conj (fun H => double_sound Ec0_laws one w w1 P A S H HS) (fun H => double_complete Ec0_laws one w w1 P A S H HS)).
  - exact (conj (fun H => double_sound Ec1_laws one w w1 P A S H HS) (fun H => double_complete Ec1_laws one w w1 P A S H HS)).
Qed.
Theorem C43_double_and_add_sound : forall C r, halo_curve C r -> forall (w : assignment (Base C)) (one : Var), w one = fone ->
  forall (P Q : CurvePoint C) A B D S, cp_is w P A -> cp_is w Q B -> A <> infinity -> B <> infinity -> A <> B ->
  sum_of A B D -> sum_of A D S -> sound w (cp_double_and_add_incomplete one P Q) (fun R => cp_is w R S).
Proof.
  intros C r [|] w one w1 P Q A B D S.
  - exact (dbl_add_sound Ec0_laws one w w1 P Q A B D S).
  - exact (dbl_add_sound Ec1_laws one w w1 P Q A B D S).
Qed.
Theorem C43_double_and_add_complete : forall C r, halo_curve C r -> forall (w : assignment (Base C)) (one : Var), w one = fone ->
  forall (P Q : CurvePoint C) A B D S, cp_has w P A -> cp_has w Q B -> sum_of A B D -> sum_of A D S ->
  (A = infinity /\ B = infinity) \/ ((A <> infinity /\ B <> infinity /\ A <> B /\ A <> opposite B) /\ D <> opposite A) ->
  complete w (cp_double_and_add_incomplete one P Q) (fun R => cp_has w R S).
Proof.
  intros C r [|] w one w1 P Q A B D S.
  - exact (dbl_add_complete Ec0_laws one w w1 P Q A B D S).
  - exact (dbl_add_complete Ec1_laws one w w1 P Q A B D S).
Qed.
Theorem C43_add_conditionally_incomplete : forall C r, halo_curve C r -> forall (w : assignment (Base C)) (one : Var), w one = fone ->
  forall (P Q : CurvePoint C) A B S (c : Boolean) b, sum_of A B S ->
  (cp_is w P A -> cp_is w Q B -> bool_is w c b -> A <> infinity -> B <> infinity -> A <> B ->
   sound w (cp_add_conditionally_incomplete one P Q c) (fun R => cp_is w R (if b then S else A))) /\
  (cp_has w P A -> cp_has w Q B -> bool_has w c b -> A <> infinity /\ B <> infinity /\ A <> B /\ A <> opposite B ->
   complete w (cp_add_conditionally_incomplete one P Q c) (fun R => cp_has w R (if b then S else A))).
Proof.
  intros C r [|] w one w1 P Q A B S c b HS.
  - exact (conj (fun H1 H2 H3 => add_cond_inc_sound Ec0_laws one w w1 P Q A B S c b H1 H2 H3 HS)
                (fun H1 H2 H3 => add_cond_inc_complete Ec0_laws one w w1 P Q A B S c b H1 H2 H3 HS)).
  - exact (conj (fun H1 H2 H3 => add_cond_inc_sound Ec1_laws one w w1 P Q A B S c b H1 H2 H3 HS)
                (fun H1 H2 H3 => add_cond_inc_complete Ec1_laws one w w1 P Q A B S c b H1 H2 H3 HS)).
Qed.

(** C44: scalar multiplication by the honest prover, by bits (least significant
    first) ... *)
Theorem C44_multiply : forall C r, halo_curve C r -> forall (w : assignment (Base C)) (one : Var), w one = fone ->
  forall (P : CurvePoint C) A bits bs, cp_has w P A -> Forall2 (bit_has w) bits bs ->
  complete w (cp_multiply one P bits) (fun R => exists D, multiple A (Z.to_nat (bits_val bs)) D /\ cp_has w R D).
Proof. intros C r [|] w one w1; [exact (multiply_top Ec0_laws w one w1)|exact (multiply_top Ec1_laws w one w1)]. Qed.
Theorem C44_multiply_inv : forall C r, halo_curve C r -> forall (w : assignment (Base C)) (one : Var), w one = fone ->
  forall (P : CurvePoint C) A bits bs, cp_has w P A -> Forall2 (bit_has w) bits bs -> (bits_val bs mod r <> 0)%Z ->
  complete w (cp_multiply_inv one P bits) (fun R => exists D, cp_has w R D /\ multiple D (Z.to_nat (bits_val bs)) A).
Proof. intros C r [|] w one w1; [exact (multiply_inv_top Ec0_laws w one w1)|exact (multiply_inv_top Ec1_laws w one w1)]. Qed.
(** ... the fast variants need at least two bits, the top one set, and a scalar
    below r - 1 ... *)
Theorem C44_multiply_fast : forall C r, halo_curve C r -> forall (w : assignment (Base C)) (one : Var), w one = fone ->
  forall (P : CurvePoint C) A bits bs, cp_has w P A -> Forall2 (bit_has w) bits bs ->
  2 <= length bs -> last bs false = true -> (bits_val bs + 1 < r)%Z ->
  complete w (cp_multiply_fast one P bits) (fun R => exists D, multiple A (Z.to_nat (bits_val bs)) D /\ cp_has w R D).
Proof. intros C r [|] w one w1; [exact (multiply_fast_top Ec0_laws w one w1)|exact (multiply_fast_top Ec1_laws w one w1)]. Qed.
Theorem C44_multiply_inv_fast : forall C r, halo_curve C r -> forall (w : assignment (Base C)) (one : Var), w one = fone ->
  forall (P : CurvePoint C) A bits bs, cp_has w P A -> Forall2 (bit_has w) bits bs ->
  2 <= length bs -> last bs false = true -> (bits_val bs + 1 < r)%Z ->
  complete w (cp_multiply_inv_fast one P bits) (fun R => exists D, cp_has w R D /\ multiple D (Z.to_nat (bits_val bs)) A).
Proof. intros C r [|] w one w1; [exact (multiply_inv_fast_top Ec0_laws w one w1)|exact (multiply_inv_fast_top Ec1_laws w one w1)]. Qed.
(** ... and by the scalar of a challenge, of which 128 bits are given. *)
Theorem C44_multiply_endo : forall C r, halo_curve C r -> forall F1 p1 v1, FieldLaws F1 p1 v1 ->
  forall (w : assignment (Base C)) (one : Var), w one = fone ->
  forall (P : CurvePoint C) A bits bs (challenge : F1) (p : C), cp_has w P A -> Forall2 (bit_has w) bits bs -> length bits = 128 ->
  (forall i, i < 128 -> nth i bs false = Z.testbit (v1 challenge) (Z.of_nat i)) -> represents p A ->
  complete w (cp_multiply_endo one P bits)
    (fun R => exists D, represents (c_mul p (get_challenge_scalar challenge)) D /\ cp_has w R D).
Proof.
  intros C r [|] F1 p1 v1 L1 w one w1.
  - exact (multiply_endo_top Ec0_laws w one w1 base_beta0 beta0 L1).
  - exact (multiply_endo_top Ec1_laws w one w1 base_beta1 beta1 L1).
Qed.
Theorem C44_multiply_inv_endo : forall C r, halo_curve C r -> forall F1 p1 v1, FieldLaws F1 p1 v1 ->
  forall (w : assignment (Base C)) (one : Var), w one = fone ->
  forall (P : CurvePoint C) A bits bs (challenge : F1), cp_has w P A -> Forall2 (bit_has w) bits bs -> length bits = 128 ->
  (forall i, i < 128 -> nth i bs false = Z.testbit (v1 challenge) (Z.of_nat i)) ->
  complete w (cp_multiply_inv_endo one P bits)
    (fun R => exists D, cp_has w R D /\ forall p : C, represents p D -> represents (c_mul p (get_challenge_scalar challenge)) A).
Proof.
  intros C r [|] F1 p1 v1 L1 w one w1.
  - exact (multiply_inv_endo_top Ec0_laws w one w1 base_beta0 beta0 L1).
  - exact (multiply_inv_endo_top Ec1_laws w one w1 base_beta1 beta1 L1).
Qed.

(** Concrete cases: wires holding the generator of Ec0 and a true bit; the
    gadgets run on them. *)
Example wires_meet : cp_has (C := Ec0) gen_w gen_wires (Some (fone, ec0_Gy)) /\ gen_w (VA 1) = fone /\ bit_has gen_w on_wire true.
Proof. exact (gen_has gen_w (extends_refl 4 gen_w)). Qed.
Example multiply_endo_runs : exists tr R w D, Exec (cp_multiply_endo (VA 1) gen_wires (repeat on_wire 128)) tr (Some (Ok R)) /\
  constraints_hold w tr /\ cp_has (C := Ec0) w R D /\ represents (c_mul (c_one : Ec0) (get_challenge_scalar (@f_from_u128 Fp (2 ^ 128 - 1)))) D.
Proof. exact endo_run. Qed.
Example multiply_fast_runs : exists tr R w D, Exec (cp_multiply_fast (VA 1) gen_wires (repeat on_wire 254)) tr (Some (Ok R)) /\
  constraints_hold w tr /\ cp_has (C := Ec0) w R D /\ multiple (Some (fone, ec0_Gy)) (Z.to_nat (2 ^ 254 - 1)) D.
Proof. exact fast_run. Qed.

Print Assumptions C39_conditional_neg.
Print Assumptions C39_conditional_endo.
Print Assumptions C40_witness_sound.
Print Assumptions C40_witness_complete.
Print Assumptions C40_identity_coordinates_refuted.
Print Assumptions C41_add_incomplete_complete.
Print Assumptions C41_add_incomplete_division.
Print Assumptions C41_add_incomplete_refuted.
Print Assumptions C42_add_complete.
Print Assumptions C42_add_conditionally_complete.
Print Assumptions C42_add_identity_sound.
Print Assumptions C42_add_refuted.
Print Assumptions C42_add_identities_refuted.
Print Assumptions C43_double.
Print Assumptions C43_double_and_add_sound.
Print Assumptions C43_double_and_add_complete.
Print Assumptions C43_add_conditionally_incomplete.
Print Assumptions C44_multiply.
Print Assumptions C44_multiply_inv.
Print Assumptions C44_multiply_fast.
Print Assumptions C44_multiply_inv_fast.
Print Assumptions C44_multiply_endo.
Print Assumptions C44_multiply_inv_endo.
