(** The recursive verification circuit as a whole. *)
From Coq Require Import String List Bool Arith ZArith Lia Ring Field.
From Verif Require Import Lib.AbGroup Lib.Abel Model.FieldTrait Model.Circuits Model.Num Model.Boolean Model.Curve Model.Ecc Model.Threads Model.Params Model.Util
  Model.Rescue Model.RescueGadget Model.Opening Model.Proofs Model.Recursion
  Spec.FieldLaws Spec.CircuitSpec Spec.NumSpec Spec.BoolSpec Spec.UtilSpec Spec.CurveSpec Spec.CheatSpec Spec.CurveLaws Spec.EccSpec Spec.ProofSpec Spec.VerifySpec Spec.RecursionSpec Spec.RecursiveCircuitSpec
  Proofs.FieldGen Proofs.ZtoF Proofs.CircuitP Proofs.LcP Proofs.NumP Proofs.BoolP Proofs.UnpackP Proofs.ChallengeP Proofs.CurveTop Proofs.EccP Proofs.EccAddP Proofs.EccMulP Proofs.MultiexpP Proofs.IdentityP
  Proofs.DeferredTop Proofs.OpeningTop Proofs.ProverLemmas Proofs.ProverTop
  Proofs.RescueGadgetP Proofs.RecursionP Proofs.ModeP Proofs.RecursionDeferredP Proofs.TranscriptGadgetP Proofs.EncodeP Proofs.RecursionGlue Proofs.VerifyP Proofs.VerifyTop Proofs.SliceP Proofs.HonP Proofs.VerifierGadgetP
  Proofs.VerifierRoundsP Proofs.VerifierCircuitP Proofs.VerifierChecksP.
Import ListNotations.
Open Scope nat_scope. Open Scope list_scope.

Section Top.
  Context {C : Curve} {q vb r vs} (CL : CurveLaws C q vb r vs) (one : Var).
  Notation F := (Base C).
  Let FL : FieldLaws F q vb := cl_base _ _ _ _ _ CL.
  Let OL : OpsLaws F q vb := fl_ops _ _ _ FL.
  Let SL : FieldLaws (Scalar C) r vs := cl_scalar _ _ _ _ _ CL.
  Let SO : OpsLaws (Scalar C) r vs := fl_ops _ _ _ SL.
  Add Field Ff : (ffield OL).
  Add Field Fs : (ffield SO).
  Variable w : assignment F.
  Hypothesis w_one : w one = fone.
  Hypothesis HB1 : f_BETA = BETA_BASE C.
  Hypothesis HB2 : f_BETA = BETA_SCALAR C.
  Notation G := (cl_group _ _ _ _ _ CL).
  Notation pt := (cl_point _ _ _ _ _ CL).
  Notation gen := (cl_gen _ _ _ _ _ CL).
  Notation rep := (CurveTop.rep CL).
  Notation zs := (EccMulP.zs CL).
  Notation zsum := (MultiexpP.zsum CL).
  Notation PH := (PH CL w).
  Notation BH := (Forall2 (bit_has w)).
  Notation mrep := (mrep CL).
  Implicit Types (g h : G).

  (** *** inputs and witnessed bits *)
  Lemma H_inputs s bs : complete w (input_bits (C := C) s bs) (fun bits => BH bits bs).
  Proof.
    unfold input_bits. apply complete_namespace. eapply complete_weaken.
    - apply (complete_mapM w _ (fun y b => bit_has w b y)). intros y _. apply complete_namespace, (bit_alloc_input_unchecked_complete FL w (Ok y) y eq_refl).
    - intros bits H. clear - H. induction H; constructor; assumption.
  Qed.
  Lemma H_bits s bs : complete w (Recursion.witness_bits (C := C) s bs) (fun bits => BH bits bs).
  Proof.
    unfold Recursion.witness_bits. apply complete_namespace. eapply complete_weaken.
    - apply (complete_mapM w _ (fun y b => bit_has w b y)). intros y _. apply complete_namespace, (bit_alloc_complete FL one w (Ok y) y eq_refl).
    - intros bits H. clear - H. induction H; constructor; assumption.
  Qed.
  Lemma H_check s bits bs : BH bits bs -> complete w (check_bits (C := C) s bits) (fun _ => True).
  Proof.
    intro H. unfold check_bits. apply complete_namespace. induction H as [|b x bits bs Hb _ IH]; cbn [foldM]; [apply complete_ret; exact I|].
    eapply complete_bind; [apply complete_namespace, (bit_check_complete FL one w b x Hb)|]. intros [] _. exact IH.
  Qed.

  (** *** the base payload *)
  Context {md : bool}.
  Notation hon := (hon w md).
  Lemma payload_bit_complete bc b bit old o : bit_has w bc b -> bit_has w old o -> (b = true -> bit = o) ->
    complete w (constrain_payload_bit one bc bit old) (fun _ => True).
  Proof.
    intros [Hb1 Hb2] [Ho1 Ho2] HE. unfold constrain_payload_bit. rewrite Hb2, Ho2. cbv zeta. cbn [option_map ok_or_missing rbind].
    eapply complete_multiply_k; [reflexivity| |intros x y z Ex Ey Ez].
    { rewrite !(fb_of_bit FL). destruct b; [rewrite HE by reflexivity|]; cbn [of_bit]; ring. }
    rewrite !(fb_of_bit FL) in *. unfold bit_is in Hb1, Ho1.
    destruct bit; repeat (cstep; [lcv OL; rewrite ?Hb1, ?Ho1, ?w_one, ?Ex, ?Ey, ?Ez; try (destruct b, o; cbn [of_bit]); ring|]); (apply complete_enforce; [lcv OL; rewrite ?Ez; ring|exact I]).
  Qed.
  Lemma payload_bit_sound bc b bit old o : bit_is w bc b -> bit_is w old o ->
    sound w (constrain_payload_bit one bc bit old) (fun _ => b = true -> bit = o).
  Proof.
    intros Hb Ho. unfold constrain_payload_bit. cbv zeta. unfold bit_is in Hb, Ho.
    apply sound_multiply_k. intros x y z v HM.
    eapply sound_bind with (Q1 := fun _ => w x = fsub (of_bit bit) (of_bit o)).
    { destruct bit; apply sound_enforce; intro E; revert E; lcv OL; rewrite ?w_one, ?Ho; intro E.
      - transitivity (fadd (fsub (fadd (fsub (w x) fone) (of_bit o)) (of_bit o)) fone); [ring|rewrite E; cbn [of_bit]; ring].
      - transitivity (fsub (fadd (w x) (of_bit o)) (of_bit o)); [ring|rewrite E; cbn [of_bit]; ring]. }
    intros [] Ex. apply sound_enforce_k. intro E2. apply sound_enforce. intro E3. revert E2 E3. lcv OL. rewrite Hb. intros E2 E3 ->.
    assert (Ey : w y = fone) by (transitivity (fadd (fsub (w y) (of_bit true)) fone); [cbn [of_bit]; ring|rewrite E2; ring]).
    rewrite Ex, Ey, E3 in HM. apply (BoolP.of_bit_inj (F := F) FL). transitivity (fadd (fmul (fsub (of_bit bit) (of_bit o)) fone) (of_bit o) : F); [ring|rewrite HM; ring].
  Qed.
  Lemma agree_refl l : agree l l.
  Proof. intros i x y E1 E2. congruence. Qed.
  Lemma V_payload bc b bits : bit_has w bc b -> forall olds os, BH olds os -> (md = true -> b = true -> agree bits os) ->
    hon (foldM (fun (_ : unit) '(bit, old) => constrain_payload_bit one bc bit old) (combine bits olds) tt) (fun _ => b = true -> agree bits os).
  Proof.
    intro Hb. induction bits as [|bit bits IH]; intros olds os HO HE; cbn [combine foldM]; [apply hon_ret; intros _ [|i] x y E; discriminate E|].
    destruct HO as [|old o olds os Ho HO]; cbn [combine foldM]; [apply hon_ret; intros _ [|i] x y _ E; discriminate E|].
    eapply hon_bind; [apply hon_check; [exact (payload_bit_complete bc b bit old o Hb Ho)|exact (payload_bit_sound bc b bit old o (proj1 Hb) (proj1 Ho))|]|].
    - intros Em E. exact (HE Em E 0 bit o eq_refl eq_refl).
    - cbv beta. intros [] F0. eapply hon_weaken; [apply (IH olds os HO); intros Em E i x y E1 E2; exact (HE Em E (S i) x y E1 E2)|].
      cbv beta. intros _ FS E [|i] x y E1 E2; cbn [nth_error] in E1, E2; [injection E1 as <-; injection E2 as <-; exact (F0 E)|exact (FS E i x y E1 E2)].
  Qed.

  (** *** the commitment to the inputs *)
  Lemma H_commit_bits gens bs A B : bit_sum gens bs A B -> Forall (fun xy => exists P : C, represents P (Some xy)) gens ->
    forall bits P g, BH bits bs -> PH P g -> A = pt g ->
    complete w (commit_bits one gens bits P) (fun R => exists h, PH R h /\ B = pt h).
  Proof.
    unfold commit_bits.
    induction 1 as [gens A|bs A|x y gens b bs A S B N1 N2 N3 HS _ IH]; intros HG bits P g HB HP ->.
    - inversion HB; subst. cbn [combine foldM]. apply complete_ret. exists g. split; [exact HP|reflexivity].
    - replace (combine bits (@nil (F * F))) with (@nil (AllocatedBit * (F * F))) by (destruct bits; reflexivity). cbn [foldM]. apply complete_ret. exists g. split; [exact HP|reflexivity].
    - inversion HB as [|bit b' bits' bs' Hb HB']; subst. inversion HG as [|a l [Q HQ] HG']; subst. cbn [combine foldM].
      destruct (rep_ex CL Q _ HQ) as (h & Eh & Rh).
      assert (HC : PH (cp_constant x y) h). { apply (H_const CL w Q h); [exact Rh|]. exact (cl_get_xy _ _ _ _ _ CL _ _ HQ). }
      eapply complete_bind.
      { apply complete_namespace. eapply (add_cond_inc_complete CL one w w_one P _ (pt g) (Some (x, y)) S (Is bit) b); [exact HP|rewrite Eh; exact HC|exact Hb|exact HS|].
        repeat split; try assumption. discriminate. }
      cbv beta. intros R HR.
      assert (ES : exists s, S = pt s).
      { exists (gp g h). apply (cl_sum _ _ _ _ _ CL). rewrite <- Eh. exact HS. }
      destruct ES as (s & ->).
      destruct b; cbn [pick_point] in HR.
      + apply (IH HG' bits' R s HB' HR eq_refl).
      + apply (IH HG' bits' R g HB' HR eq_refl).
  Qed.

  (** *** the circuit *)
  Variable self : VerificationCircuit C.
  Notation k := (p_k (vc_params self)).
  Definition payload_bits_of : list bool := match vc_proof self with Some p => bytes_bits (op_payload p) | None => base_payload (vc_inner self) end.
  Definition leftovers1_of : list bool := match vc_old_leftovers self with Some l => bytes_bits l | None => repeat false (leftovers_bits k) end.
  Definition old_leftovers1_of : list bool :=
    match vc_proof self with Some p => bytes_bits (leftovers_to_bytes (op_oldproof1 p)) | None => repeat false (leftovers_bits k) end.
  Definition old_deferred_of : option (Deferred F) := match vc_proof self with Some p => Some (op_deferred p) | None => deferred_dummy k end.

  Lemma F2_len {A B} (R : A -> B -> Prop) l l' : Forall2 R l l' -> length l = length l'. Proof. apply UnpackP.Forall2_length. Qed.
  Lemma V_synthesize_with pchain b0 L' (D : Deferred (Scalar C)) OD B (VQ IQ : Prop) :
    vc_base_case self = Some b0 -> vc_new_leftovers self = Some L' -> vc_deferred self = Some D -> old_deferred_of = Some OD ->
    good_generators (vc_params self) ->
    bits_commitment (vc_params self) (payload_bits_of ++ old_leftovers1_of ++ leftovers1_of ++ bytes_bits (deferred_to_bytes OD)) B ->
    k <= 64 -> encodes_deferred q vb k OD (bytes_bits (deferred_to_bytes OD)) -> (md = true -> deferred_verify OD k = Some true) ->
    deferred_at r vs k D (bytes_bits (deferred_to_bytes D)) ->
    (md = true -> b0 = true -> agree (base_payload (vc_inner self)) payload_bits_of) ->
    length old_leftovers1_of = leftovers_bits k ->
    (forall bc Kc gK ol ds nl, bit_has w bc b0 -> PH Kc gK -> B = pt gK -> BH ol old_leftovers1_of -> BH ds (bytes_bits (deferred_to_bytes D)) ->
       BH nl (bytes_bits (leftovers_to_bytes L')) -> hon (g_verify_proof_with one pchain self bc Kc ol ds nl) (fun _ => b0 = false -> VQ)) ->
    (md = true -> b0 = false -> firstn (128 * k) (skipn (256 * 8) (bytes_bits (deferred_to_bytes D))) = skipn (256 * 4 + 128) old_leftovers1_of) ->
    (md = true -> b0 = false -> firstn 128 (skipn (128 * 1) (bytes_bits (deferred_to_bytes D))) = firstn 128 (skipn (256 * 2) old_leftovers1_of)) ->
    (forall old new, BH old payload_bits_of -> BH new (bytes_bits (vc_new_payload self)) ->
       hon (inner_synthesize (vc_inner self) one old new) (fun _ => IQ)) ->
    hon (vc_synthesize_with one pchain self) (fun _ =>
      (md = false -> exists s t, sign s /\ sign t /\ deferred_verify (with_signs s t OD) k = Some true) /\
      (b0 = true -> agree (base_payload (vc_inner self)) payload_bits_of) /\
      (b0 = false -> VQ /\
        firstn (128 * k) (skipn (256 * 8) (bytes_bits (deferred_to_bytes D))) = skipn (256 * 4 + 128) old_leftovers1_of /\
        firstn 128 (skipn (128 * 1) (bytes_bits (deferred_to_bytes D))) = firstn 128 (skipn (256 * 2) old_leftovers1_of)) /\
      IQ).
  Proof.
    intros Eb EL ED EOD (Gs & HG) (g1 & [gx gy] & gens & EG & HS) Hk HOD HV DA HP LO HVP HLO HLY HI.
    unfold vc_synthesize_with. rewrite EL, ED, Eb. fold leftovers1_of. cbn [ok_or_missing].
    eapply hon_bindc; [apply H_inputs|]. cbv beta. intros pb HPB.
    eapply hon_bindc; [apply H_inputs|]. cbv beta. intros l1 HL1.
    eapply hon_bindc; [apply H_inputs|]. cbv beta. intros l2 HL2.
    eapply hon_bindc; [apply H_inputs|]. cbv beta. intros ds HDS.
    eapply hon_bindc; [apply (H_check _ _ _ HPB)|]. intros [] _.
    eapply hon_bindc; [apply (H_check _ _ _ HL1)|]. intros [] _.
    eapply hon_bindc; [apply (H_check _ _ _ HL2)|]. intros [] _.
    eapply hon_bindc; [apply (H_check _ _ _ HDS)|]. intros [] _.
    eapply hon_nsbc; [apply (bit_alloc_complete FL one w (Ok b0) b0 eq_refl)|]. cbv beta. intros bc Hbc.
    rewrite EG in HG |- *. cbn [nth_error unwrap]. change (bind (ret (gx, gy)) ?f) with (f (gx, gy)). cbv beta iota zeta.
    inversion HG as [|G1 a1 Gs1 l1' HG1 HG']; subst. inversion HG' as [|G2 a2 Gs2 l2' HG2 HGs]; subst.
    eapply hon_bindc with (Q1 := fun bits => BH bits payload_bits_of).
    { unfold payload_bits_of. destruct (vc_proof self); apply H_bits. }
    intros op HOP.
    eapply hon_nsb; [apply (V_payload bc b0 _ Hbc op _ HOP HP)|]. cbv beta. intros [] FP.
    eapply hon_bindc with (Q1 := fun bits => BH bits old_leftovers1_of).
    { unfold old_leftovers1_of. destruct (vc_proof self); apply H_bits. }
    intros ol HOL.
    fold old_deferred_of. rewrite EOD. cbn [unwrap]. change (bind (ret OD) ?f) with (f OD). cbv beta.
    eapply hon_bindc; [apply H_bits|]. cbv beta. intros od HODb.
    assert (LOD : length (bytes_bits (deferred_to_bytes OD)) = length (bytes_bits (deferred_to_bytes D))).
    { rewrite (dat_len _ _ _ _ _ DA). exact (dat_len _ _ _ _ _ (deferred_slices _ _ _ _ _ HOD)). }
    apply hon_assert_k; [apply Nat.eqb_eq; rewrite (F2_len _ _ _ HODb), (F2_len _ _ _ HDS); exact LOD|].
    change (slice_from (g1 :: (gx, gy) :: gens) 2) with (Some gens). cbn [unwrap]. change (bind (ret gens) ?f) with (f gens). cbv beta.
    destruct (rep_ex CL G2 _ HG2) as (h & Eh & Rh).
    assert (HC : PH (cp_constant gx gy) h) by (apply (H_const CL w G2 h); [exact Rh|exact (cl_get_xy _ _ _ _ _ CL _ _ HG2)]).
    eapply hon_nsbc.
    { eapply (H_commit_bits gens _ _ B HS); [|repeat (apply Forall2_app; [eassumption|]); eassumption|exact HC|exact Eh].
      clear - HGs. induction HGs as [|P xy l l' H _ IH]; constructor; [exists P; exact H|exact IH]. }
    cbv beta. intros Kc (gK & HK & EB).
    eapply hon_nsb with (Q1 := fun _ => md = false -> exists s t, sign s /\ sign t /\ deferred_verify (with_signs s t OD) k = Some true).
    { destruct md.
      - eapply complete_weaken; [apply (deferred_complete FL one w w_one k od OD _ Hk HODb HOD (HV eq_refl))|]. intros _ _ E. discriminate E.
      - intros tr a E _ HC' _. destruct (deferred_sound FL one w w_one k od _ Hk (F2_has _ _ _ HODb) _ _ E HC') as (D' & s & t & HD & Hs & Ht & HVs).
        rewrite (RecursionDeferredP.encodes_inj FL k D' OD _ HD HOD) in HVs. exists s, t. auto. }
    intros [] FD.
    eapply hon_nsb; [apply (HVP bc Kc gK ol ds l2 Hbc HK EB HOL HDS HL2)|]. cbv beta. intros [] FV.
    pose proof (dat_len _ _ _ _ _ DA) as LD. unfold leftovers_bits in LO.
    eapply hon_bind.
    { apply (V_bits_at w ds _ _ _ _ _ HDS); [rewrite LD; lia|]. intros dc HDC.
      assert (ES : slice_from ol (256 * 4 + 128) = Some (skipn (256 * 4 + 128) ol)).
      { unfold slice_from. replace (256 * 4 + 128 <=? length ol) with true; [reflexivity|]. symmetry. apply Nat.leb_le. rewrite (F2_len _ _ _ HOL), LO. lia. }
      rewrite ES. cbn [unwrap]. change (bind (ret ?v) ?f) with (f v). cbv beta.
      apply hon_ns, (V_equal CL one w w_one bc b0 _ _ _ _ Hbc HDC (F2_skipn _ _ _ _ HOL)); [|exact HLO].
      rewrite firstn_length, !skipn_length, LD, LO. lia. }
    cbv beta. intros [] FC.
    eapply hon_bind.
    { apply (V_bits_at w ds _ _ _ _ _ HDS); [rewrite LD; lia|]. intros dy HDY.
      apply (V_bits_at w ol _ _ _ _ _ HOL); [rewrite LO; lia|]. intros oy HOY.
      apply hon_ns, (V_equal CL one w w_one bc b0 _ _ _ _ Hbc HDY HOY); [|exact HLY].
      rewrite !firstn_length, !skipn_length, LD, LO. lia. }
    cbv beta. intros [] FY. apply hon_ns. eapply hon_weaken; [exact (HI op pb HOP HPB)|]. cbv beta. intros _ HIQ.
    split; [exact FD|]. split; [exact FP|]. split; [|exact HIQ]. intro E. split; [exact (FV E)|]. split; [exact (FC E)|exact (FY E)].
  Qed.
End Top.
