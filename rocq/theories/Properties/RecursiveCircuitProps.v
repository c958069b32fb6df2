(** C58: the recursive verification circuit (src/recursion.rs) can be satisfied: with
    an old proof whose verification succeeds, and in the base case.
    C59: with the witnesses the program computes, only then.
    [circuit_accepts], [verified_exactly], [good_generators], [bits_commitment] and
    [satisfied_only_if] are in Spec/RecursiveCircuitSpec.v; [complete] is in Spec/CircuitSpec.v. *)
From Coq Require Import ZArith List Bool Arith Lia.
From Verif Require Import Lib.AbGroup Lib.Abel Model.FieldTrait Model.FieldInst Model.Circuits Model.Num Model.Boolean Model.Curve Model.Threads Model.Util Model.Rescue Model.RescueGadget
  Model.Params Model.Opening Model.Proofs Model.Recursion
  Spec.FieldSpec Spec.FieldLaws Spec.CircuitSpec Spec.NumSpec Spec.BoolSpec Spec.CurveSpec Spec.CurveLaws Spec.UtilSpec Spec.SystemSpec Spec.ProofSpec Spec.VerifySpec Spec.RecursionSpec Spec.RecursiveCircuitSpec
  Proofs.FieldGen Proofs.FpFq Proofs.CurveInst Proofs.CurveTop Proofs.MultiexpP Proofs.HonestP Proofs.ZtoF Proofs.ExampleP Proofs.OpeningP Proofs.OpeningTop Proofs.ProverLemmas Proofs.ProverP Proofs.ProverTop
  Proofs.RecursionGlue Proofs.VerifyP Proofs.VerifyTop Proofs.UtilTop Proofs.EccTop Proofs.VerifierStepP Proofs.PowerGensP
  Properties.ProverProps Properties.RecursionProps.
Import ListNotations.
Open Scope nat_scope. Open Scope list_scope.

(** The circuit with an old proof: its public inputs (payload, leftovers, the bytes of
    the other curve's leftovers, deferred data) have the commitment [K], the equations
    checked for it hold for [K], [L'], [D] and [forks], its own deferred data verifies and
    the application's circuit accepts the step from the old to the new payload.  Then
    every run with the witnesses computed from these values ends well and satisfies
    all constraints. *)
Theorem C58_step : forall C r, halo_curve C r -> forall one (w : assignment (Base C)), w one = fone ->
  forall (self : VerificationCircuit C) old lb L' D forks K B, let L := op_oldproof1 old in let k := p_k (vc_params self) in
  vc_base_case self = Some false -> vc_proof self = Some old -> vc_forkvalues self = Some forks -> vc_old_leftovers self = Some lb ->
  vc_new_leftovers self = Some L' -> vc_deferred self = Some D ->
  good_generators (vc_params self) -> k <= 64 ->
  bits_commitment (vc_params self) (flat_map byte_bits (op_payload old) ++ flat_map byte_bits (leftovers_to_bytes L) ++
    flat_map byte_bits lb ++ flat_map byte_bits (deferred_to_bytes (op_deferred old))) B -> represents K B ->
  proof_of_points k (op_proof old) L -> length (challenges_sq_packed_new L) = k -> Forall small (y_new L :: challenges_sq_packed_new L) ->
  circuit_accepts K (op_proof old) L L' D forks ->
  length (d_challenges_sq_packed_old (op_deferred old)) = k -> length (d_challenges_sq_packed_new (op_deferred old)) = k ->
  Forall small (half_parts (op_deferred old)) -> deferred_verify (op_deferred old) k = Some true ->
  (forall ob nb, Forall2 (bit_has w) ob (flat_map byte_bits (op_payload old)) -> Forall2 (bit_has w) nb (flat_map byte_bits (vc_new_payload self)) ->
     complete w (inner_synthesize (vc_inner self) one ob nb) (fun _ => True)) ->
  complete w (vc_synthesize one self) (fun _ => True).
Proof.
  intros C r [|] one w w1 self old lb L' D forks K B L k E1 E2 E3 E4 E5 E6 HG Hk HB HK.
  - exact (step_complete Ec0_laws one w w1 eq_refl eq_refl self old lb L' D forks K B E1 E2 E3 E4 E5 E6 HG HB HK Hk).
  - exact (step_complete Ec1_laws one w w1 eq_refl eq_refl self old lb L' D forks K B E1 E2 E3 E4 E5 E6 HG HB HK Hk).
Qed.
(** The base case: no old proof; whatever the new leftovers and deferred data are (of
    the right lengths), they are not checked. *)
Theorem C58_base : forall C r, halo_curve C r -> forall one (w : assignment (Base C)), w one = fone ->
  forall (self : VerificationCircuit C) lb L' D forks OD B, let k := p_k (vc_params self) in
  vc_base_case self = Some true -> vc_proof self = None -> vc_forkvalues self = Some forks -> vc_old_leftovers self = Some lb ->
  vc_new_leftovers self = Some L' -> vc_deferred self = Some D -> @deferred_dummy (Base C) k = Some OD ->
  good_generators (vc_params self) -> 2 <= k <= 64 ->
  bits_commitment (vc_params self) (base_payload (vc_inner self) ++ repeat false (8 * (144 + 16 * k)) ++
    flat_map byte_bits lb ++ flat_map byte_bits (deferred_to_bytes OD)) B ->
  length forks = k -> Forall (fun n => n < 256) forks -> length (challenges_sq_packed_new L') = k ->
  length (d_challenges_sq_packed_old D) = k -> length (d_challenges_sq_packed_new D) = k -> Forall small (half_parts D) ->
  (forall ob nb, Forall2 (bit_has w) ob (base_payload (vc_inner self)) -> Forall2 (bit_has w) nb (flat_map byte_bits (vc_new_payload self)) ->
     complete w (inner_synthesize (vc_inner self) one ob nb) (fun _ => True)) ->
  complete w (vc_synthesize one self) (fun _ => True).
Proof.
  intros C r [|] one w w1 self lb L' D forks OD B k E1 E2 E3 E4 E5 E6 E7 HG Hk HB F1 F2 F3 F4 F5 F6 HI.
  - assert (EL : 8 * (144 + 16 * k) = leftovers_bits k) by (unfold leftovers_bits; lia). rewrite EL in HB.
    destruct (deferred_dummy_top Ec1_laws k magic_fq (proj1 Hk)) as (OD' & X1 & X2). assert (OD' = OD) as -> by (change (Base Ec0) with (Scalar Ec1) in E7; congruence).
    exact (base_complete Ec0_laws one w w1 eq_refl eq_refl self lb L' D forks OD B E1 E2 E3 E4 E5 E6 E7 HG HB (proj2 Hk) F1 F2 F3 F4 F5 F6 X2 HI).
  - assert (EL : 8 * (144 + 16 * k) = leftovers_bits k) by (unfold leftovers_bits; lia). rewrite EL in HB.
    destruct (deferred_dummy_top Ec0_laws k magic_fp (proj1 Hk)) as (OD' & X1 & X2). assert (OD' = OD) as -> by (change (Base Ec1) with (Scalar Ec0) in E7; congruence).
    exact (base_complete Ec1_laws one w w1 eq_refl eq_refl self lb L' D forks OD B E1 E2 E3 E4 E5 E6 E7 HG HB (proj2 Hk) F1 F2 F3 F4 F5 F6 X2 HI).
Qed.
(** A proof that verifies with equality in every claim, and the leftovers, deferred data
    and fork values that [Proof::verify] returns for it, are accepted by the circuit. *)
Theorem C58_verified : forall C r, halo_curve C r -> forall (K : C) k pf L L' D forks,
  well_formed_proof k pf L -> verified_exactly K pf L L' D forks -> proof_of_points k pf L /\ circuit_accepts K pf L L' D forks.
Proof.
  intros C r [|] K k pf L L' D forks HW H; (split; [exact (conj (proj1 HW) (proj1 (proj2 HW)))|]).
  - exact (exact_accepts Ec0_laws k K pf L L' D forks HW H).
  - exact (exact_accepts Ec1_laws k K pf L L' D forks HW H).
Qed.
(** What verifies exactly, [Proof::verify] accepts, if the claimed value of k(Y) is
    right (which [Deferred::verify] and the next step of the recursion see to). *)
Theorem C58_exact_accepts : forall C r, halo_curve C r -> forall (K : C) k pf L L' D forks,
  verified_exactly K pf L L' D forks -> d_ky_opening D = eval_at k (d_y_cur D) -> verified K k pf L true L' D forks.
Proof.
  intros C r _ K k pf L L' D forks (gx & y & x & yn & z & t & t' & claims & H0 & H1 & H2 & H3 & H4 & H5) Hky.
  assert (Ey : d_y_cur D = y) by tauto. rewrite Ey in Hky.
  exists gx, y, x, yn, z, t, t', claims. cbv zeta in *. rewrite <- Hky.
  split; [exact H0|]. split; [exact H1|]. split; [exact H2|]. split; [exact H3|].
  split; [|tauto]. split; [intros _|reflexivity]. intros j claim a Hj Ha.
  destruct (H4 j claim a Hj Ha) as (cs & cis & Ls & Rs & ls & rs & A & b & D1 & D2 & D3 & D4 & D5 & D6 & D7 & D8 & D9 & D10).
  exists cs, cis, Ls, Rs, ls, rs, A, A, b. tauto.
Qed.
(** The honest prover's proofs are accepted in this way: [proof_new] makes proofs that
    the next step can verify. *)
Theorem C58_honest : forall C r, halo_curve C r -> forall M M', machine_ok M -> machine_ok M' ->
  forall fuel (P : Params C) prover verifier s L pf L' K, fuel <= 256 -> good_params P -> can_prove P prover verifier s -> honest_leftovers P verifier L ->
  proof_new M fuel P prover L = Done (Ok (pf, L')) -> commits_to_inputs P s K ->
  honest_leftovers P verifier L' /\ well_formed_proof (p_k P) pf L /\
  exists D forks, proof_verify M' pf L P verifier (tl (l_values s)) (Some K) = Done (Ok (true, L', D, forks)) /\
    deferred_verify D (p_k P) = Some true /\ verified_exactly K pf L L' D forks.
Proof.
  intros C r [|] M M' HM HM' fuel P prover verifier s L pf L' K Hf HP HC HL E HK.
  - destruct (good_reps Ec0_laws P HP) as (gs & HG). exact (honest_exact Ec0_laws P gs HP HG M M' fuel prover verifier s L pf L' K HM HM' HC HL E Hf HK).
  - destruct (good_reps Ec1_laws P HP) as (gs & HG). exact (honest_exact Ec1_laws P gs HP HG M M' fuel prover verifier s L pf L' K HM HM' HC HL E Hf HK).
Qed.

(** *** Satisfying runs exist.  An application that accepts everything: *)
Definition accept_all (payload : list bool) : RecursiveCircuit Fq := mkInner Fq payload (fun _ _ _ => Ret (Ok tt)).
Lemma accept_complete (w : assignment Fq) : complete w (Ret (Ok tt)) (fun _ : unit => True).
Proof. intros tr a E HC. inversion E; subst. exists tt. repeat split. constructor. Qed.
Lemma ones_one (w : assignment Fq) : extends 2 (fun _ => @fone Fq) w -> w (VA 1) = fone.
Proof. intro H. rewrite H; [reflexivity|]. intros k E. injection E as <-. lia. Qed.
(** the base case *)
Example C58_base_nonvacuous : exists (self : VerificationCircuit Ec0) tr (w : assignment Fq), vc_base_case self = Some true /\
  Exec (vc_synthesize (VA 1) self) tr (Some (Ok tt)) /\ constraints_hold w tr /\ w (VA 1) = fone.
Proof.
  destruct (power_params_exist Ec0_laws 5 ltac:(lia)) as (P & Pk & HP & HG & _ & HB).
  destruct (deferred_dummy_top Ec0_laws 5 magic_fp ltac:(lia)) as (D & ED & _).
  destruct (deferred_dummy_top Ec1_laws 5 magic_fq ltac:(lia)) as (OD & EOD & _).
  destruct (dummy_small Fp_laws 5 D ED) as (D1 & D2 & D3).
  set (self := mkVC P (Some true) (accept_all (flat_map byte_bits [5; 0; 7; 255]%Z)) None [5; 0; 7; 255]%Z (Some (repeat 0 5)) (Some (repeat 17%Z 300))
    (Some (mkLeft (c_zero : Ec0) fzero c_zero (repeat fzero 5))) (Some D)).
  destruct (complete_runs (vc_synthesize (VA 1) self) 2 (fun _ => @fone Fq) (fun _ _ => True)) as (tr & [] & w & H1 & H2 & H3 & _).
  - intros w Hw. eapply (C58_base Ec0 _ halo_ec0 (VA 1) w (ones_one w Hw) self (repeat 17%Z 300) _ D (repeat 0 5) OD); try reflexivity; cbn [self vc_params]; try rewrite Pk; try assumption; try reflexivity.
    + lia.
    + apply HB.
    + repeat constructor; lia.
    + exact (fun ob nb _ _ => accept_complete w).
  - exists self, tr, w. split; [reflexivity|]. split; [exact H1|]. split; [exact H2|exact (ones_one w H3)].
Qed.
Lemma square_fits (P : Params Ec0) (x : Fp) : 8 <= p_n P -> 8 <= p_d P ->
  can_prove P (square_circuit (Ok x)) (square_circuit (Err AssignmentMissing)) (square_layout x).
Proof.
  intros Hn Hd. split; [exact (square_true x)|]. split; [eexists; split; [exact (square_false (Ok x))|repeat split]|].
  split; [eexists; split; [exact (square_false (Err AssignmentMissing))|repeat split]|].
  split; [exact (square_satisfied (fl_ops _ _ _ Fp_laws) x)|]. cbn [l_gates l_lcs square_layout square_lcs length]. lia.
Qed.
(** a step from a proof for the circuit of [square_can_prove] with public input 1, made
    by [proof_new] (which finds its challenges, or there is a transcript without) *)
Example C58_step_nonvacuous : (exists t, reached t /\ no_challenge (C := Ec0) 256 t) \/
  exists (self : VerificationCircuit Ec0) old tr (w : assignment Fq), vc_base_case self = Some false /\ vc_proof self = Some old /\
    (exists L', proof_new machine3 256 (vc_params self) (square_circuit (Ok fone)) (op_oldproof1 old) = Done (Ok (op_proof old, L'))) /\
    Exec (vc_synthesize (VA 1) self) tr (Some (Ok tt)) /\ constraints_hold w tr /\ w (VA 1) = fone.
Proof.
  destruct (power_params_exist Ec0_laws 5 ltac:(lia)) as (P & HPP). pose proof HPP as (Pk & HP & HG & HR & HB).
  destruct (deferred_dummy_top Ec1_laws 5 magic_fq ltac:(lia)) as (OD & EOD & OV).
  destruct (dummy_small Fq_laws 5 OD EOD) as (D1 & D2 & D3).
  pose proof HP as (_ & Pd & Pn & Pg & _). rewrite Pk in Pd, Pn, Pg. change (2 ^ 5) with 32 in Pd, Pn, Pg.
  assert (HC : can_prove P (square_circuit (Ok fone)) (square_circuit (Err AssignmentMissing)) (square_layout (fone : Fp))).
  { apply square_fits; lia. }
  destruct (dummy_top Ec0_laws machine3 P _ _ magic_fp machine3_top HP ltac:(lia) (square_false (Err AssignmentMissing))) as (L & EL & HL).
  assert (HK : exists K, rep Ec0_laws K (zmul 6 (cl_gen _ _ _ _ _ Ec0_laws))) by apply rep_every. destruct HK as (K & HK).
  assert (HCK : commits_to_inputs P (square_layout (fone : Fp)) K).
  { exists [fzero; fone; fone]. split.
    - exact (power_commit Ec0_laws P K HPP HK).
    - intro i. destruct i as [|[|[|i]]]; try reflexivity. unfold coeff. cbn [nth square_layout l_inputs l_values input_at]. destruct i; reflexivity. }
  destruct (C48_complete Ec0 _ halo_ec0 machine3 machine3 machine3_top machine3_top 256 P _ _ _ L HP HC HL) as [[_ H]|(pf & L' & E & _)]; [left; exact H|right].
  destruct (C58_honest Ec0 _ halo_ec0 machine3 machine3 machine3_top machine3_top 256 P _ _ _ L pf L' K ltac:(lia) HP HC HL E HCK) as (HL' & HW & D & forks & _ & HV & HX).
  set (old := mkOld pf L OD [1; 0; 0; 0]%Z).
  set (self := mkVC P (Some false) (accept_all (repeat false 32)) (Some old) [3; 0; 7; 255]%Z (Some forks) (Some (repeat 17%Z 224)) (Some L') (Some D)).
  assert (LL : length (challenges_sq_packed_new L) = 5). { destruct HL as (X & _). rewrite X. exact Pk. }
  assert (SmL : Forall small (y_new L :: challenges_sq_packed_new L)).
  { exact (dummy_leftovers_small Ec0_laws machine3 P L EL). }
  destruct (complete_runs (vc_synthesize (VA 1) self) 2 (fun _ => @fone Fq) (fun _ _ => True)) as (tr & [] & w & H1 & H2 & H3 & _).
  - intros w Hw. eapply (C58_step Ec0 _ halo_ec0 (VA 1) w (ones_one w Hw) self old (repeat 17%Z 224) L' D forks K _ eq_refl eq_refl eq_refl eq_refl eq_refl eq_refl HG);
      cbn [self old vc_params op_oldproof1 op_proof op_deferred op_payload]; try rewrite Pk; try assumption.
    + lia.
    + apply HB.
    + exact HK.
    + rewrite <- Pk. exact (proj1 (C58_verified Ec0 _ halo_ec0 K (p_k P) pf L L' D forks HW HX)).
    + exact (proj2 (C58_verified Ec0 _ halo_ec0 K (p_k P) pf L L' D forks HW HX)).
    + intros ob nb _ _. apply accept_complete.
  - exists self, old, tr, w. split; [reflexivity|]. split; [reflexivity|]. split; [exists L'; exact E|]. split; [exact H1|]. split; [exact H2|exact (ones_one w H3)].
Qed.

(** ** C59: what a satisfying run shows.  With the values the program computes for its
    witnesses, from an old proof of curve points and from new leftovers and deferred
    data of the right form: if the constraints hold then (a) the deferred data of the
    old proof verifies up to the signs of its inner products (see C57); (b) in the base
    case the old payload is the initial payload of the application; (c) otherwise the
    old proof is accepted with the results [L'] and [D]; (d) the application's circuit
    accepts the step. *)
Theorem C59_only_if : forall C r, halo_curve C r -> forall one (w : assignment (Base C)), w one = fone ->
  forall (self : VerificationCircuit C) base old lb L' D forks K B (inner_accepts : Prop), let L := op_oldproof1 old in let k := p_k (vc_params self) in
  vc_base_case self = Some base -> vc_proof self = Some old -> vc_forkvalues self = Some forks -> vc_old_leftovers self = Some lb ->
  vc_new_leftovers self = Some L' -> vc_deferred self = Some D ->
  good_generators (vc_params self) -> k <= 64 ->
  bits_commitment (vc_params self) (flat_map byte_bits (op_payload old) ++ flat_map byte_bits (leftovers_to_bytes L) ++
    flat_map byte_bits lb ++ flat_map byte_bits (deferred_to_bytes (op_deferred old))) B -> represents K B ->
  proof_of_points k (op_proof old) L -> length (challenges_sq_packed_new L) = k -> Forall small (y_new L :: challenges_sq_packed_new L) ->
  valid (s_new_commitment L') -> valid (g_new L') -> length (challenges_sq_packed_new L') = k -> Forall small (y_new L' :: challenges_sq_packed_new L') ->
  length (d_challenges_sq_packed_old D) = k -> length (d_challenges_sq_packed_new D) = k -> Forall small (half_parts D) ->
  length (d_challenges_sq_packed_old (op_deferred old)) = k -> length (d_challenges_sq_packed_new (op_deferred old)) = k ->
  Forall small (half_parts (op_deferred old)) -> length forks = k -> Forall (fun n => n < 256) forks ->
  (forall ob nb, Forall2 (bit_has w) ob (flat_map byte_bits (op_payload old)) -> Forall2 (bit_has w) nb (flat_map byte_bits (vc_new_payload self)) ->
     satisfied_only_if w (inner_synthesize (vc_inner self) one ob nb) (fun _ => inner_accepts)) ->
  satisfied_only_if w (vc_synthesize one self) (fun _ =>
    (exists s t, sign s /\ sign t /\ deferred_verify (with_signs s t (op_deferred old)) k = Some true) /\
    (base = true -> agree (base_payload (vc_inner self)) (flat_map byte_bits (op_payload old))) /\
    (base = false -> circuit_accepts K (op_proof old) L L' D forks) /\
    inner_accepts).
Proof.
  intros C r [|] one w w1 self base old lb L' D forks K B IQ L k E1 E2 E3 E4 E5 E6 HG Hk HB HK.
  - exact (step_only_if Ec0_laws one w w1 eq_refl eq_refl self base old lb L' D forks K B IQ E1 E2 E3 E4 E5 E6 HG HB HK Hk).
  - exact (step_only_if Ec1_laws one w w1 eq_refl eq_refl self base old lb L' D forks K B IQ E1 E2 E3 E4 E5 E6 HG HB HK Hk).
Qed.
(** Together with C58: outside of the base case, with an application that accepts the
    step and an old proof whose deferred data verifies, a run satisfies the constraints
    exactly if the old proof is accepted. *)
Theorem C59_exact : forall C r, halo_curve C r -> forall one (w : assignment (Base C)), w one = fone ->
  forall (self : VerificationCircuit C) old lb L' D forks K B, let L := op_oldproof1 old in let k := p_k (vc_params self) in
  vc_base_case self = Some false -> vc_proof self = Some old -> vc_forkvalues self = Some forks -> vc_old_leftovers self = Some lb ->
  vc_new_leftovers self = Some L' -> vc_deferred self = Some D ->
  good_generators (vc_params self) -> k <= 64 ->
  bits_commitment (vc_params self) (flat_map byte_bits (op_payload old) ++ flat_map byte_bits (leftovers_to_bytes L) ++
    flat_map byte_bits lb ++ flat_map byte_bits (deferred_to_bytes (op_deferred old))) B -> represents K B ->
  proof_of_points k (op_proof old) L -> length (challenges_sq_packed_new L) = k -> Forall small (y_new L :: challenges_sq_packed_new L) ->
  valid (s_new_commitment L') -> valid (g_new L') -> length (challenges_sq_packed_new L') = k -> Forall small (y_new L' :: challenges_sq_packed_new L') ->
  length (d_challenges_sq_packed_old D) = k -> length (d_challenges_sq_packed_new D) = k -> Forall small (half_parts D) ->
  length (d_challenges_sq_packed_old (op_deferred old)) = k -> length (d_challenges_sq_packed_new (op_deferred old)) = k ->
  Forall small (half_parts (op_deferred old)) -> length forks = k -> Forall (fun n => n < 256) forks ->
  deferred_verify (op_deferred old) k = Some true ->
  (forall ob nb, Forall2 (bit_has w) ob (flat_map byte_bits (op_payload old)) -> Forall2 (bit_has w) nb (flat_map byte_bits (vc_new_payload self)) ->
     complete w (inner_synthesize (vc_inner self) one ob nb) (fun _ => True)) ->
  forall tr res, Exec (vc_synthesize one self) tr res -> witnessed w tr ->
  ((exists a, res = Some (Ok a)) /\ constraints_hold w tr <-> circuit_accepts K (op_proof old) L L' D forks).
Proof.
  intros C r HC one w w1 self old lb L' D forks K B L k E1 E2 E3 E4 E5 E6 HG Hk HB HK HPP LL HSm V1 V2 LL' HSm' LD1 LD2 SD LO1 LO2 SO Lf Hf OV HI tr res HE HW.
  split.
  - intros ((a & ->) & HCs).
    assert (HI' : forall ob nb, Forall2 (bit_has w) ob (flat_map byte_bits (op_payload old)) -> Forall2 (bit_has w) nb (flat_map byte_bits (vc_new_payload self)) ->
      satisfied_only_if w (inner_synthesize (vc_inner self) one ob nb) (fun _ => True)) by (intros ob nb _ _ tr' a' _ _ _; exact I).
    destruct (C59_only_if C r HC one w w1 self false old lb L' D forks K B True E1 E2 E3 E4 E5 E6 HG Hk HB HK HPP LL HSm V1 V2 LL' HSm' LD1 LD2 SD LO1 LO2 SO Lf Hf HI' tr a HE HW HCs) as (_ & _ & X & _).
    exact (X eq_refl).
  - intro HA. destruct (C58_step C r HC one w w1 self old lb L' D forks K B E1 E2 E3 E4 E5 E6 HG Hk HB HK HPP LL HSm HA LO1 LO2 SO OV HI tr res HE HW) as (a & E & H & _).
    split; [exists a; exact E|exact H].
Qed.

(** The hypotheses of C59_exact can be met by a proof that is not accepted: the proof
    all of whose points are the identity, with the new leftovers all zero. *)
Example C59_rejects : exists self : VerificationCircuit Ec0, vc_base_case self = Some false /\
  forall (w : assignment Fq) tr, w (VA 1) = fone -> Exec (vc_synthesize (VA 1) self) tr (Some (Ok tt)) -> witnessed w tr -> ~ constraints_hold w tr.
Proof.
  destruct (power_params_exist Ec0_laws 5 ltac:(lia)) as (P & HPP). pose proof HPP as (Pk & HP & HG & HR & HB).
  destruct (deferred_dummy_top Ec1_laws 5 magic_fq ltac:(lia)) as (OD & EOD & OV).
  destruct (dummy_small Fq_laws 5 OD EOD) as (O1 & O2 & O3).
  destruct (deferred_dummy_top Ec0_laws 5 magic_fp ltac:(lia)) as (D & ED & _).
  destruct (dummy_small Fp_laws 5 D ED) as (D1 & D2 & D3).
  set (L := mkLeft (c_zero : Ec0) fzero c_zero (repeat fzero 5)).
  set (round := mkRound (repeat (c_zero : Ec0) 5) (repeat c_zero 5) (repeat fzero 5) (repeat fzero 5)).
  set (pf := mkProof (c_zero : Ec0) c_zero c_zero c_zero c_zero c_zero fzero fzero fzero fzero fzero fzero fzero (mkMulti (repeat round 5) (repeat fzero 5) c_zero)).
  set (old := mkOld pf L OD [1; 0; 0; 0]%Z).
  set (self := mkVC P (Some false) (accept_all (repeat false 32)) (Some old) [3; 0; 7; 255]%Z (Some (repeat 0 5)) (Some (repeat 17%Z 224)) (Some L) (Some D)).
  assert (V0 : valid (c_zero : Ec0)) by exact (rep_valid Ec0_laws _ _ (rep0 Ec0_laws)).
  assert (S0 : small (fzero : Fp)) by (apply (small_v Fp_laws); rewrite (ol_zero _ _ _ (fl_ops _ _ _ Fp_laws)); reflexivity).
  assert (HPo : proof_of_points 5 pf L).
  { split; [repeat (constructor; [exact V0|]); constructor|]. repeat split; try reflexivity; try exact V0; try (cbn; lia).
    apply Forall_repeat. cbn [round ip_L ip_R ip_l ip_r]. rewrite !repeat_length. repeat split; try lia; apply Forall_repeat; exact V0. }
  assert (SL0 : Forall small (y_new L :: challenges_sq_packed_new L)) by (repeat (constructor; [exact S0|]); constructor).
  set (bits := flat_map byte_bits (op_payload old) ++ flat_map byte_bits (leftovers_to_bytes L) ++ flat_map byte_bits (repeat 17%Z 224) ++ flat_map byte_bits (deferred_to_bytes OD)).
  destruct (rep_every Ec0_laws (zmul (addup 2 2 (2 ^ 5 - 2) bits) (cl_gen _ _ _ _ _ Ec0_laws))) as (K & HK).
  exists self. split; [reflexivity|]. intros w tr w1 HE HW HC.
  destruct (C59_only_if Ec0 _ halo_ec0 (VA 1) w w1 self false old (repeat 17%Z 224) L D (repeat 0 5) K _ True eq_refl eq_refl eq_refl eq_refl eq_refl eq_refl HG
    ltac:(cbn [self vc_params]; lia) (HB bits) HK) with (tr := tr) (a := tt) as (_ & _ & X & _);
    cbn [self old vc_params op_oldproof1 op_proof op_deferred op_payload]; try rewrite Pk; try assumption; try reflexivity.
  - repeat constructor; lia.
  - intros ob nb _ _ tr' a' _ _ _. exact I.
  - destruct (X eq_refl) as (y & x & yn & z & t & t' & mss & claims & (t1 & t2 & t3 & _ & _ & (e & _ & E) & _) & _ & _ & _ & _ & Ly & _).
    rewrite <- Ly in E. pose proof (Z.mod_pos_bound (le_val (f_to_bytes e)) (2 ^ 127) ltac:(reflexivity)). 
    assert (Z0 : le_val (f_to_bytes (y_new L)) = 0%Z) by reflexivity. lia.
Qed.

Print Assumptions C58_step.
Print Assumptions C58_verified.
Print Assumptions C59_only_if.
Print Assumptions C59_exact.
Print Assumptions C58_base.
Print Assumptions C58_exact_accepts.
Print Assumptions C58_honest.
