(** C60: the system of constraints of the recursive circuit (src/recursion.rs) does not
    depend on the values it is built from, so that the prover's circuit and the empty
    circuit that the verifier builds describe the same system; with satisfying values
    the prover's wires satisfy it, and its public inputs are the bits of the payload,
    the leftovers and the deferred data.
    [uniform], [shaped], [starts_well] and [public_bits] are in Spec/UniformSpec.v,
    [laid_out], [same_system] and [satisfied] in Spec/SystemSpec.v. *)
From Coq Require Import ZArith String List Bool Arith Lia Ring.
From Verif Require Import Lib.AbGroup Lib.Abel Model.FieldTrait Model.FieldInst Model.Circuits Model.Num Model.Boolean Model.Curve Model.Threads Model.Util Model.Rescue Model.RescueGadget
  Model.Params Model.Opening Model.Proofs Model.Recursion
  Spec.FieldSpec Spec.FieldLaws Spec.CircuitSpec Spec.NumSpec Spec.BoolSpec Spec.CurveSpec Spec.CurveLaws Spec.UtilSpec Spec.SystemSpec Spec.ProofSpec Spec.VerifySpec Spec.RecursionSpec Spec.RecursiveCircuitSpec Spec.UniformSpec
  Proofs.FieldGen Proofs.FpFq Proofs.CurveInst Proofs.CurveTop Proofs.CircuitP Proofs.LcP Proofs.NumP Proofs.BoolP Proofs.EccP Proofs.UnpackP Proofs.ProverTop Proofs.UtilTop Proofs.RecursionGlue Proofs.VerifierStepP Proofs.PowerGensP
  Proofs.AlikeLayoutP Proofs.AlikeRecursionP Proofs.RecursiveSystemP Properties.RecursiveCircuitProps.
Import ListNotations.
Open Scope nat_scope. Open Scope list_scope.
Local Notation length := List.length.

Lemma dummy_exists C r : halo_curve C r -> forall k, 2 <= k -> exists D : Deferred (Base C), deferred_dummy k = Some D.
Proof.
  intros [|] k Hk.
  - destruct (deferred_dummy_top Ec1_laws k magic_fq Hk) as (D & E & _). exists D. exact E.
  - destruct (deferred_dummy_top Ec0_laws k magic_fp Hk) as (D & E & _). exists D. exact E.
Qed.

(** Two circuits with the same parameters, the same application circuit and payloads
    of the same length: if one can be laid out (by the prover, with its values, or
    without), then so can the other without its values, as the same system.  The
    application's circuit may refuse new payloads that are not [ok]. *)
Theorem C60_same_system : forall C r, halo_curve C r -> forall (self self' : VerificationCircuit C) (ok : list bool -> Prop),
  vc_params self' = vc_params self -> vc_inner self' = vc_inner self -> length (vc_new_payload self) = length (vc_new_payload self') ->
  shaped self -> shaped self' -> uniform ok (vc_inner self) -> ok (flat_map byte_bits (vc_new_payload self')) ->
  2 <= p_k (vc_params self) -> good_generators (vc_params self) -> starts_well (vc_params self) ->
  forall ran s, laid_out ran (fun one => vc_synthesize one self) s ->
  exists t, laid_out false (fun one => vc_synthesize one self') t /\ same_system s t.
Proof.
  intros C r HC self self' ok EP EI EL SH SH' HU HOk Hk HG HS ran s H. destruct HC.
  - exact (circuits_same_system Ec0_laws (dummy_exists _ _ halo_ec0) self self' ok SH SH' EP EI EL HU HOk Hk HG HS ran s H).
  - exact (circuits_same_system Ec1_laws (dummy_exists _ _ halo_ec1) self self' ok SH SH' EP EI EL HU HOk Hk HG HS ran s H).
Qed.
(** If the circuit is complete (C58), the prover lays it out and its wires satisfy the
    system. *)
Theorem C60_satisfied : forall C r, halo_curve C r -> forall (self : VerificationCircuit C) (ok : list bool -> Prop),
  shaped self -> uniform ok (vc_inner self) -> ok (flat_map byte_bits (vc_new_payload self)) -> 2 <= p_k (vc_params self) -> good_generators (vc_params self) -> starts_well (vc_params self) ->
  (forall w, w (VA 1) = fone -> complete w (vc_synthesize (VA 1) self) (fun _ => True)) ->
  exists s, laid_out true (fun one => vc_synthesize one self) s /\ satisfied s.
Proof.
  intros C r HC self ok SH HU HOk Hk HG HS H. destruct HC.
  - exact (circuit_satisfied Ec0_laws (dummy_exists _ _ halo_ec0) self ok SH HU HOk Hk HG HS H).
  - exact (circuit_satisfied Ec1_laws (dummy_exists _ _ halo_ec1) self ok SH HU HOk Hk HG HS H).
Qed.
(** The public inputs of the prover's circuit: the constant one and the bits of the
    payload, the old and the new leftovers and the deferred data, the constraints
    1, 2, 3, ... in this order. *)
Theorem C60_public_inputs : forall C r, halo_curve C r -> forall (self : VerificationCircuit C) ok lb L D,
  vc_old_leftovers self = Some lb -> vc_new_leftovers self = Some L -> vc_deferred self = Some D ->
  shaped self -> uniform ok (vc_inner self) -> ok (flat_map byte_bits (vc_new_payload self)) -> 2 <= p_k (vc_params self) -> good_generators (vc_params self) -> starts_well (vc_params self) ->
  forall s, laid_out true (fun one => vc_synthesize one self) s ->
  l_values s = fone :: map of_bit (public_bits self lb L D) /\ l_inputs s = seq 1 (length (l_values s)).
Proof.
  assert (X : forall C q vb r vs (CL : CurveLaws C q vb r vs) (self : VerificationCircuit C) lb L D s,
    vc_old_leftovers self = Some lb -> vc_new_leftovers self = Some L -> vc_deferred self = Some D ->
    l_inputs s = seq 1 (S (length (in_payload self ++ in_old self ++ in_new self ++ in_deferred self))) /\
    l_values s = (if true then fone else fzero) :: map (fun b => if true then f_from_bool b else fzero) (in_payload self ++ in_old self ++ in_new self ++ in_deferred self) ->
    l_values s = @fone (Base C) :: map of_bit (public_bits self lb L D) /\ l_inputs s = seq 1 (length (l_values s))).
  { intros C q vb r vs CL self lb L D s E1 E2 E3 (H1 & H2). unfold in_payload, in_old, in_new, in_deferred, bytes_bits in *. rewrite E1, E2, E3 in *.
    rewrite H1, H2. cbn [length]. rewrite map_length. split; [|reflexivity]. f_equal. unfold public_bits. rewrite !flat_map_app.
    apply map_ext. intro b. apply (fb_of_bit (cl_base _ _ _ _ _ CL)). }
  intros C r HC self ok lb L D E1 E2 E3 SH HU HOk Hk HG HS s H. destruct HC.
  - exact (X _ _ _ _ _ Ec0_laws self lb L D s E1 E2 E3 (circuit_inputs Ec0_laws (dummy_exists _ _ halo_ec0) self ok SH HU HOk Hk HG HS true s H)).
  - exact (X _ _ _ _ _ Ec1_laws self lb L D s E1 E2 E3 (circuit_inputs Ec1_laws (dummy_exists _ _ halo_ec1) self ok SH HU HOk Hk HG HS true s H)).
Qed.

(** *** An application: the payload stays the same, and its first bit is set. *)
Fixpoint same_bits {F : Field} (old new : list AllocatedBit) : CS F unit :=
  match old, new with
  | o :: old, n :: new => bind (enforce_zero (lc_sub_v (lc_from (bit_var o)) (bit_var n))) (fun _ => same_bits old new)
  | _, _ => ret tt
  end.
Definition keep {F : Field} (payload : list bool) : RecursiveCircuit F :=
  mkInner F payload (fun one old new => bind (same_bits old new) (fun _ =>
    match new with n :: _ => enforce_zero (lc_sub_v (lc_from (bit_var n)) one) | [] => ret tt end)).
Lemma keep_uniform {F : Field} ok payload : uniform (F := F) ok (keep payload).
Proof.
  intros V one old new old' new' bits V1 Ho Hn _ _ _. cbn [keep inner_synthesize].
  eapply (AlikeP.alike_bind _ _ (fun _ _ => True)).
  - revert new new' Hn. induction Ho as [|o o' old old' (E & Vo) Ho IH]; intros new new' Hn; [apply al_ret; exact I|].
    destruct Hn as [|n n' new new' (E' & Vn) Hn]; [apply al_ret; exact I|]. cbn [same_bits]. rewrite <- E, <- E'.
    unfold enforce_zero, bind. cbn [pbind]. apply al_lc; [|exact (IH _ _ Hn)].
    repeat (constructor; [assumption|]). constructor.
  - intros _ _ _. destruct Hn as [|n n' new new' (E' & Vn) Hn]; [apply al_ret; exact I|]. rewrite <- E'. unfold enforce_zero. apply al_lc; [|apply al_ret; exact I].
    repeat (constructor; [assumption|]). constructor.
Qed.
Section Keep.
  Context {C : Curve} {q vb r vs} (CL : CurveLaws C q vb r vs).
  Notation F := (Base C).
  Let OL : OpsLaws F q vb := fl_ops _ _ _ (cl_base _ _ _ _ _ CL).
  Add Ring Fr : (fring OL).
  Lemma bits_commitment_starts (P : Params C) b bits B : bits_commitment P (b :: bits) B -> starts_well P.
  Proof.
    intros (first & second & gens & E & H). exists first, second, gens. split; [exact E|]. intros third E3 HS.
    destruct gens as [|xy gens]; [discriminate E3|]. injection E3 as ->. inversion H as [| |x y gens' b' bits' A S B' N1 N2 N3 HS' H']; subst.
    inversion HS; subst. apply N3. f_equal. f_equal. ring.
  Qed.
  Lemma same_bits_complete (w : assignment F) bits : forall ob nb, Forall2 (bit_has w) ob bits -> Forall2 (bit_has w) nb bits -> complete w (same_bits ob nb) (fun _ => True).
  Proof.
    induction bits as [|b bits IH]; intros ob nb Ho Hn; inversion Ho as [|o ? ob' ? (H1 & _) Ho']; subst; inversion Hn as [|n ? nb' ? (H2 & _) Hn']; subst; cbn [same_bits].
    - apply complete_ret, I.
    - unfold bit_is in *. eapply complete_enforce_k; [ecc_lcg OL w; ring|]. apply IH; assumption.
  Qed.
  Lemma keep_complete payload (w : assignment F) one (w1 : w one = fone) bits ob nb : Forall2 (bit_has w) ob (true :: bits) -> Forall2 (bit_has w) nb (true :: bits) ->
    complete w (inner_synthesize (keep payload) one ob nb) (fun _ => True).
  Proof.
    intros Ho Hn. cbn [keep inner_synthesize]. eapply complete_bind; [apply (same_bits_complete w (true :: bits) _ _ Ho Hn)|]. intros _ _.
    inversion Hn as [|n ? nb' ? (H1 & _) _]; subst. apply complete_enforce; [|exact I]. unfold bit_is in H1. cbn [of_bit] in H1. ecc_lcg OL w. ring.
  Qed.
End Keep.

(** The base case of this application, with the parameters of C58: the prover lays out
    a satisfied system, and the verifier's empty circuit is laid out as the same. *)
Example C60_nonvacuous : exists (self : VerificationCircuit Ec0) s t, vc_base_case self = Some true /\
  let blank := mkVC (vc_params self) None (vc_inner self) None (vc_new_payload self) None None None None in
  shaped self /\ shaped blank /\ uniform (fun _ => True) (vc_inner self) /\ good_generators (vc_params self) /\ starts_well (vc_params self) /\
  laid_out true (fun one => vc_synthesize one self) s /\ satisfied s /\
  laid_out false (fun one => vc_synthesize one blank) t /\ same_system s t /\ 32 < length (l_values s).
Proof.
  destruct (power_params_exist Ec0_laws 5 ltac:(lia)) as (P & Pk & HP & HG & _ & HB).
  destruct (deferred_dummy_top Ec0_laws 5 magic_fp ltac:(lia)) as (D & ED & _).
  destruct (deferred_dummy_top Ec1_laws 5 magic_fq ltac:(lia)) as (OD & EOD & _).
  destruct (dummy_small Fp_laws 5 D ED) as (D1 & D2 & D3).
  set (bytes := [255; 0; 7; 255]%Z). set (L := mkLeft (c_zero : Ec0) fzero c_zero (repeat fzero 5)). set (lb := repeat 17%Z 224).
  set (self := mkVC P (Some true) (keep (flat_map byte_bits bytes)) None bytes (Some (repeat 0 5)) (Some lb) (Some L) (Some D)).
  assert (HS : starts_well P) by exact (bits_commitment_starts Ec0_laws P true [] _ (HB [true])).
  assert (HU : uniform (fun _ => True) (vc_inner self)) by apply keep_uniform.
  assert (SH : shaped self).
  { constructor; cbn [self vc_proof vc_forkvalues vc_old_leftovers vc_new_leftovers vc_deferred vc_params]; rewrite Pk.
    - discriminate.
    - intros fs E. injection E as <-. exact (le_n 5).
    - intros l E. injection E as <-. unfold lb. rewrite repeat_length. reflexivity.
    - intros l E. injection E as <-. reflexivity.
    - intros D0 E. injection E as <-. split; assumption. }
  assert (Hk : 2 <= p_k (vc_params self)) by (cbn [self vc_params]; rewrite Pk; lia).
  destruct (C60_satisfied Ec0 _ halo_ec0 self _ SH HU I Hk HG HS) as (s & H1 & H2).
  { intros w w1. eapply (C58_base Ec0 _ halo_ec0 (VA 1) w w1 self lb _ D (repeat 0 5) OD); try reflexivity; cbn [self vc_params]; try rewrite Pk; try assumption; try reflexivity.
    - lia.
    - apply HB.
    - repeat constructor; lia.
    - intros ob nb Ho Hn. exact (keep_complete Ec0_laws _ w (VA 1) w1 _ ob nb Ho Hn). }
  set (blank := mkVC (vc_params self) None (vc_inner self) None (vc_new_payload self) None None None None).
  assert (SB : shaped blank) by (constructor; discriminate).
  destruct (C60_same_system Ec0 _ halo_ec0 self blank _ eq_refl eq_refl eq_refl SH SB HU I Hk HG HS true s H1) as (t & H3 & H4).
  exists self, s, t. split; [reflexivity|]. repeat (split; [assumption|]).
  destruct (C60_public_inputs Ec0 _ halo_ec0 self _ lb L D eq_refl eq_refl eq_refl SH HU I Hk HG HS s H1) as (E & _). rewrite E. cbn [length]. rewrite map_length.
  unfold public_bits. rewrite flat_map_app, app_length, !bytes_bits_length. cbn [self vc_new_payload bytes length]. lia.
Qed.

Print Assumptions C60_same_system.
Print Assumptions C60_satisfied.
Print Assumptions C60_public_inputs.
