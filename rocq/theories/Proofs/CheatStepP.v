(** The circuit of the dishonest prover is satisfied by the attacker's proof. *)
From Coq Require Import String List Bool Arith ZArith Lia Ring Field.
From Verif Require Import Lib.AbGroup Lib.Abel Model.FieldTrait Model.Circuits Model.Num Model.Boolean Model.Curve Model.Ecc Model.Threads Model.Params Model.Util
  Model.Rescue Model.RescueGadget Model.Opening Model.Proofs Model.Recursion
  Spec.FieldLaws Spec.CircuitSpec Spec.NumSpec Spec.BoolSpec Spec.UtilSpec Spec.CurveSpec Spec.CheatSpec Spec.CurveLaws Spec.EccSpec Spec.ProofSpec Spec.VerifySpec Spec.RecursionSpec Spec.RecursiveCircuitSpec
  Proofs.FieldGen Proofs.ZtoF Proofs.CircuitP Proofs.LcP Proofs.NumP Proofs.BoolP Proofs.UnpackP Proofs.ChallengeP Proofs.CurveTop Proofs.EccP Proofs.EccAddP Proofs.EccMulP Proofs.MultiexpP Proofs.IdentityP
  Proofs.DeferredTop Proofs.OpeningP Proofs.OpeningTop Proofs.ProverLemmas Proofs.ProverTop
  Proofs.RescueGadgetP Proofs.RecursionP Proofs.ModeP Proofs.RecursionDeferredP Proofs.TranscriptGadgetP Proofs.EncodeP Proofs.RecursionGlue Proofs.VerifyP Proofs.VerifyTop Proofs.SliceP Proofs.HonP Proofs.VerifierGadgetP
  Proofs.VerifierRoundsP Proofs.VerifierCircuitP Proofs.VerifierChecksP Proofs.VerifierTopP Proofs.VerifierStepP Proofs.FakeP.
Import ListNotations.
Open Scope nat_scope. Open Scope list_scope.

Section CheatStep.
  Context {C : Curve} {q vb r vs} (CL : CurveLaws C q vb r vs).
  Notation F := (Scalar C).
  Let FL : FieldLaws (Base C) q vb := cl_base _ _ _ _ _ CL.
  Let SL : FieldLaws F r vs := cl_scalar _ _ _ _ _ CL.
  Let SO : OpsLaws F r vs := fl_ops _ _ _ SL.
  Let BO : OpsLaws (Base C) q vb := fl_ops _ _ _ FL.
  Add Field Fb2 : (ffield BO).
  Add Field Fs2 : (ffield SO).
  Notation G := (cl_group _ _ _ _ _ CL).
  Notation pt := (cl_point _ _ _ _ _ CL).
  Notation gen := (cl_gen _ _ _ _ _ CL).
  Notation rep := (CurveTop.rep CL).
  Notation zs := (EccMulP.zs CL).
  Implicit Types (g h : G).
  Variable (one : Var) (w : assignment (Base C)).
  Hypothesis w_one : w one = fone.
  Hypothesis HB1 : f_BETA = BETA_BASE C.
  Hypothesis HB2 : f_BETA = BETA_SCALAR C.
  Notation PH := (VerifierGadgetP.PH CL w).
  Notation CH := (VerifierGadgetP.CH (C := C) (vs := vs) w).

  Lemma finite g : g <> g0 -> at_infinity (pt g) = true -> False.
  Proof. intros H E. apply H, (pt_inf CL). destruct (pt g); [discriminate E|reflexivity]. Qed.
  Lemma ordinates_cancel g h : gp g h = g0 -> fadd (ordinate (pt h)) (ordinate (pt g)) = fzero.
  Proof.
    intro E. assert (h = gn g) as ->. { transitivity (gp (gn g) (gp g h)); [abel|]. rewrite E. abel. }
    rewrite (cl_opposite _ _ _ _ _ CL). destruct (pt g) as [[x y]|]; cbn [opposite ordinate]; ring.
  Qed.

  Lemma chain_step sums z c P g Q S others Qf : CH z c -> PH P g ->
    (forall P', PH P' (zs (get_challenge_scalar c) g) -> complete w (cp_add_with one (hd c_add sums) P' Q) (fun R => PH R S)) ->
    (forall R, PH R S -> complete w (endo_chain_with one (tl sums) z R others) Qf) ->
    complete w (endo_chain_with one sums z P (Q :: others)) Qf.
  Proof.
    intros HZ HP HA HK. cbn [endo_chain_with]. eapply complete_bind; [|exact HK].
    eapply H_nsb; [apply (H_endo CL one w w_one HB1 HB2 _ _ _ _ HP HZ)|]. cbv beta. intros R HR. apply complete_namespace, HA, HR.
  Qed.
  Lemma cheat_chain z c gT gD gv (T Dp : C) Pr Ps gsn ggo : CH z c -> PH Pr g0 -> Forall2 PH Ps [g0; gen; gen; gen; gsn; ggo] ->
    rep T gT -> rep Dp gD -> VerifierCircuitP.chain CL (get_challenge_scalar c) [gv; gen; gen; gen] g0 = gD -> gT <> g0 ->
    (gD = g0 -> gp (zs (get_challenge_scalar c) gT) gen = g0) ->
    complete w (endo_chain_with one [c_add; c_add; (fun _ _ => T); (fun _ _ => Dp)] z Pr Ps)
      (fun P => PH P (VerifierCircuitP.chain CL (get_challenge_scalar c) [gv; gen; gen; gen; gsn; ggo] g0)).
  Proof.
    intros HZ Hr HPs RT RD.
    inversion HPs as [|P1 ? l1 ? H1 X1]; subst. inversion X1 as [|P2 ? l2 ? H2 X2]; subst. inversion X2 as [|P3 ? l3 ? H3 X3]; subst. inversion X3 as [|P4 ? l4 ? H4 X4]; subst.
    inversion X4 as [|P5 ? l5 ? H5 X5]; subst. inversion X5 as [|P6 ? l6 ? H6 X6]; subst. inversion X6; subst. clear X1 X2 X3 X4 X5 X6. intros EC NT HD. set (u := get_challenge_scalar c) in *.
    pose proof (cl_gen_nonzero _ _ _ _ _ CL) as NG.
    assert (NU : u <> fzero). { destruct (challenge_nonzero SL SL c) as (ui & _ & Hu). fold u in Hu. intro E. rewrite E in Hu. apply (fone_neq_zero SO). rewrite <- Hu. ring. }
    assert (NZ : forall g, g <> g0 -> zs u g <> g0). { intros g Hg E. destruct (zs_zero_inv CL _ _ E) as [E0|E0]; contradiction. }
    assert (EE : VerifierCircuitP.chain CL u [gv; gen; gen; gen; gsn; ggo] g0 = VerifierCircuitP.chain CL u [gsn; ggo] gD) by (rewrite <- EC; reflexivity).
    rewrite EE. clear EE. unfold VerifierCircuitP.chain. cbn [fold_left].
    assert (HON : forall Q h, PH Q h -> forall g P, PH P g -> complete w (cp_add_with one c_add P Q) (fun R => PH R (gp g h))) by (intros Q h HQ g P HP; exact (H_add CL one w w_one P Q g h HP HQ)).
    apply (chain_step _ z c Pr g0 P1 g0 _ _ HZ Hr).
    { intros P' HP'. pose proof (HON P1 g0 H1 _ _ HP') as X. rewrite (zs_g0 CL), gp_0_l in X. exact X. }
    intros R1 HR1. apply (chain_step _ z c R1 g0 P2 gen _ _ HZ HR1).
    { intros P' HP'. pose proof (HON P2 gen H2 _ _ HP') as X. rewrite (zs_g0 CL), gp_0_l in X. exact X. }
    intros R2 HR2. apply (chain_step _ z c R2 gen P3 gT _ _ HZ HR2).
    { intros P' HP'. cbn [hd tl]. apply (add_with_complete CL one w w_one _ P' P3 _ _ (pt gT) HP' H3).
      - apply (cl_on _ _ _ _ _ CL).
      - intro E. destruct (finite _ NT E).
      - intro E. destruct (finite _ (NZ gen NG) E).
      - intro E. destruct (finite _ NG E).
      - intros _ _ _ _. exact RT. }
    intros R3 HR3. apply (chain_step _ z c R3 gT P4 gD _ _ HZ HR3).
    { intros P' HP'. cbn [hd tl]. apply (add_with_complete CL one w w_one _ P' P4 _ _ (pt gD) HP' H4).
      - apply (cl_on _ _ _ _ _ CL).
      - intro E. apply ordinates_cancel, HD, (pt_inf CL). destruct (pt gD); [discriminate E|reflexivity].
      - intro E. destruct (finite _ (NZ gT NT) E).
      - intro E. destruct (finite _ NG E).
      - intros _ _ _ _. exact RD. }
    intros R4 HR4. apply (chain_step _ z c R4 gD P5 (gp (zs u gD) gsn) _ _ HZ HR4); [intros P' HP'; exact (HON P5 gsn H5 _ _ HP')|].
    intros R5 HR5. apply (chain_step _ z c R5 (gp (zs u gD) gsn) P6 (gp (zs u (gp (zs u gD) gsn)) ggo) _ _ HZ HR5); [intros P' HP'; exact (HON P6 ggo H6 _ _ HP')|].
    intros R6 HR6. apply complete_ret, HR6.
  Qed.

  Variable self : VerificationCircuit C.
  Notation k := (p_k (vc_params self)).
  Notation BH := (Forall2 (bit_has w)).
  Theorem cheat_complete old lb L' D forks K B Sv T Dp :
    vc_base_case self = Some false -> vc_proof self = Some old -> vc_forkvalues self = Some forks -> vc_old_leftovers self = Some lb ->
    vc_new_leftovers self = Some L' -> vc_deferred self = Some D ->
    let L := op_oldproof1 old in let pf := op_proof old in
    good_generators (vc_params self) ->
    bits_commitment (vc_params self) (bytes_bits (op_payload old) ++ bytes_bits (leftovers_to_bytes L) ++ bytes_bits lb ++ bytes_bits (deferred_to_bytes (op_deferred old))) B ->
    CurveSpec.represents K B ->
    k <= 64 -> well_formed_proof k pf (virtual_left Sv L) -> valid (s_new_commitment L) -> length (challenges_sq_packed_new L) = k -> Forall small (y_new L :: challenges_sq_packed_new L) ->
    verified_exactly K pf (virtual_left Sv L) L' D forks ->
    length (d_challenges_sq_packed_old (op_deferred old)) = k -> length (d_challenges_sq_packed_new (op_deferred old)) = k ->
    Forall small (half_parts (op_deferred old)) -> deferred_verify (op_deferred old) k = Some true ->
    s_new_commitment L = c_zero -> pf_r_commitment pf = c_zero -> pf_s_cur_commitment pf = c_one -> pf_t_positive_commitment pf = c_one -> pf_t_negative_commitment pf = c_one ->
    (forall y x yn z t, conversation K pf (d_ky_opening D) (d_gx_old_opening D) y x yn z t -> passes CL (get_challenge_scalar z) Sv T Dp) ->
    (forall ob nb, BH ob (bytes_bits (op_payload old)) -> BH nb (bytes_bits (vc_new_payload self)) -> complete w (inner_synthesize (vc_inner self) one ob nb) (fun _ => True)) ->
    complete w (vc_synthesize_with one (endo_chain_with one [c_add; c_add; (fun _ _ => T); (fun _ _ => Dp)]) self) (fun _ => True).
  Proof.
    intros Eb Ep Ef El EL ED L pf HG HBC HKB Hk HWf VS LL HSm HVE LO1 LO2 OSm OV Es E1 E2 E3 E4 HPass HI.
    pose proof (exact_accepts CL _ _ _ _ _ _ _ HWf HVE) as (y & x & yn & z & t & t' & mss & claims & Hconv & H5 & HSaid & HCl & Hs & Ly & Hg & Dx & Dyo & Dyc & Dyn & Dold & Dnew).
    cbn [virtual_left challenges_sq_packed_new y_new] in Dold, Dyo.
    assert (EC : claimed D pf = pf).
    { destruct HVE as (gx & y0 & x0 & yn0 & z0 & t0 & t0' & claims0 & _ & _ & _ & _ & _ & _ & _ & _ & _ & _ & _ & _ & Dtp & Dtn & Dsx & Drx & Drxy & _). apply claimed_same; assumption. }
    assert (HPP : proof_of_points k pf L).
    { destruct HWf as (HVs & HW & _). split; [|exact HW]. inversion HVs as [|? ? V1 HV1]; subst. inversion HV1 as [|? ? V2 HV2]; subst. inversion HV2 as [|? ? V3 HV3]; subst. inversion HV3 as [|? ? V4 HV4]; subst.
      inversion HV4 as [|? ? V5 HV5]; subst. inversion HV5 as [|? ? V6 HV6]; subst. inversion HV6 as [|? ? V7 HV7]; subst. inversion HV7 as [|? ? V8 _]; subst.
      repeat (constructor; [assumption|]). constructor. }
    destruct (HPass y x yn z t ltac:(rewrite EC in Hconv; exact Hconv)) as (gv & gT & gD & Rv & RT & RD & ECh & NT & HD).
    pose proof (said_small _ _ _ _ _ _ _ HSaid) as HSp. pose proof (said_length _ _ _ _ _ _ _ HSaid) as HLp.
    pose proof HPP as (_ & _ & Hkr & _). rewrite Hkr in HLp.
    pose proof Hconv as (t1 & t2 & t3 & C1 & C2 & C3 & C4). apply challenge_small in C1, C2, C3. inversion HSm as [|? ? S1 S2]; subst.
    match goal with |- complete w ?M _ =>
    assert (X : hon w true M (fun _ => (true = false -> exists s t, sign s /\ sign t /\ deferred_verify (with_signs s t (op_deferred old)) k = Some true) /\
      (false = true -> agree (base_payload (vc_inner self)) (bytes_bits (op_payload old))) /\
      (false = false -> VerifierStepP.accepted old L' D (d_y_cur D) (d_x D) (y_new L') (challenges_sq_packed_new L') claims) /\ True)) end.
    { apply (V_step_with CL one w w_one HB1 HB2 self _ Sv gv false old lb L' D forks K B _ _ _ z t t' mss _ claims True Eb Ep Ef El EL ED HG HBC HKB Hk HPP LL HSm); try assumption; try discriminate.
      - destruct Hs as (A & HA & _). exists A. exact HA.
      - destruct Hg as (A & HA & _). exists A. exact HA.
      - constructor; assumption.
      - congruence.
      - congruence.
      - unfold half_parts. rewrite Dold, Dnew, Dyo, Dyn. repeat (constructor; [assumption|]). apply Forall_app. split; assumption.
      - intros _. exact OV.
      - intros _ _. unfold accepted. cbv zeta. repeat (split; [assumption || reflexivity|]). assumption.
      - intros gr gso gsc gtp gtn gsn ggo zc Pr Ps R1 R2 R3 R4 R5 R6 R7 Hz Hr HPs. pose proof (rep0 CL) as R0. pose proof (rep1 CL) as RO.
        fold L in R2. fold pf in R1, R3, R4, R5. rewrite E1 in R1. rewrite Es in R2. rewrite E2 in R3. rewrite E3 in R4. rewrite E4 in R5.
        rewrite (CurveTop.rep_fun CL _ _ _ R1 R0) in *. rewrite (CurveTop.rep_fun CL _ _ _ R2 R0) in *.
        rewrite (CurveTop.rep_fun CL _ _ _ R3 RO) in *. rewrite (CurveTop.rep_fun CL _ _ _ R4 RO) in *. rewrite (CurveTop.rep_fun CL _ _ _ R5 RO) in *.
        exact (cheat_chain zc z gT _ gv T Dp Pr Ps gsn ggo Hz Hr HPs RT RD eq_refl NT HD). }
    cbn [hon] in X. intros tr o HE HS. destruct (X tr o HE HS) as (a & E & HCs & _). exists a. auto.
  Qed.
End CheatStep.
