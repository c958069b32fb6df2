(** The proof made by the attacker's program of Spec/AttackSpec.v. *)
From Coq Require Import List Bool ZArith Arith Lia Ring Field.
From Verif Require Import Lib.AbGroup Lib.Abel Model.FieldTrait Model.Circuits Model.Synthesis Model.Dev Model.Curve Model.Threads Model.Util Model.Rescue Model.Params Model.Opening Model.Proofs
  Spec.FieldLaws Spec.CircuitSpec Spec.CurveSpec Spec.CurveLaws Spec.UtilSpec Spec.SystemSpec Spec.ProofSpec Spec.VerifySpec Spec.RecursiveCircuitSpec Spec.AttackSpec
  Proofs.FieldGen Proofs.ZtoF Proofs.BatchInvertP Proofs.SumP Proofs.FftP Proofs.ParFftP Proofs.PolyMulP Proofs.SystemP Proofs.CurveTop Proofs.MultiexpP Proofs.FoldP Proofs.ChallengeP Proofs.ParamsP
  Proofs.UtilTop Proofs.IdentityP Proofs.DeferredP Proofs.OpeningP Proofs.OpeningTop Proofs.ProverLemmas Proofs.ProverP Proofs.ProverTop Proofs.DeferredTop Proofs.ForgeryP Proofs.VerifyP Proofs.VerifyTop Proofs.EccMulP Proofs.VerifierCircuitP.
Import ListNotations.
Open Scope nat_scope.
Open Scope list_scope.

Section Fake_.
  Context {C : Curve} {q vb r vs} (CL : CurveLaws C q vb r vs).
  Notation F := (Scalar C).
  Notation G := (cl_group _ _ _ _ _ CL).
  Notation rep := (rep CL).
  Notation zsum := (zsum CL).
  Notation zs := (EccMulP.zs CL).
  Notation chain := (VerifierCircuitP.chain CL).
  Notation gen := (cl_gen _ _ _ _ _ CL).
  Notation gcoeffs := compute_g_coeffs_for_inner_product.
  Let BL := cl_base _ _ _ _ _ CL.
  Let SL := cl_scalar _ _ _ _ _ CL.
  Let SO := fl_ops _ _ _ SL.
  Add Field Fs : (ffield SO).
  Ltac step := cbn [out_bind out_try out_opt out_assert obind].

  Definition virtual_left (Sv : C) (L : Leftovers C) : Leftovers C := mkLeft Sv (y_new L) (g_new L) (challenges_sq_packed_new L).
  (** What the two points of the dishonest prover satisfy *)
  Definition passes (z : F) (Sv T Dp : C) : Prop :=
    exists gv gT gD, rep Sv gv /\ rep T gT /\ rep Dp gD /\ chain z [gv; gen; gen; gen] g0 = gD /\ gT <> g0 /\ (gD = g0 -> gp (zs z gT) gen = g0).

  Lemma rep1 : rep (c_one : C) gen. Proof. exact (cl_rep_one _ _ _ _ _ CL). Qed.
  Lemma zs_gp z (a b : G) : zs z (gp a b) = gp (zs z a) (zs z b). Proof. apply zmul_gp. Qed.
  Lemma cancel_sum (z zi : F) : fmul z zi = fone ->
    fadd (fmul z (fadd (fmul z (fadd (fmul z (fneg (fadd (fadd zi (fmul zi zi)) (fmul zi (fmul zi zi))))) fone)) fone)) fone = fzero.
  Proof.
    intro H. assert (E1 : fmul z (fadd (fadd zi (fmul zi zi)) (fmul zi (fmul zi zi))) = fadd (fadd fone zi) (fmul zi zi)).
    { transitivity (fadd (fadd (fmul z zi) (fmul (fmul z zi) zi)) (fmul (fmul z zi) (fmul zi zi))); [ring|]. rewrite H. ring. }
    transitivity (fadd (fmul z (fadd (fmul z (fadd (fneg (fmul z (fadd (fadd zi (fmul zi zi)) (fmul zi (fmul zi zi))))) fone)) fone)) fone); [ring|]. rewrite E1.
    transitivity (fadd (fmul z (fadd (fneg (fadd (fmul z zi) (fmul (fmul z zi) zi))) fone)) fone); [ring|]. rewrite H.
    transitivity (fadd (fneg (fmul z zi)) fone); [ring|]. rewrite H. ring.
  Qed.
  Lemma virtual_chain (z zi : F) (gS : G) : fmul z zi = fone ->
    chain z [gp gS (zs (fneg (fadd (fadd zi (fmul zi zi)) (fmul zi (fmul zi zi)))) gen); gen; gen; gen] g0 = zs z (zs z (zs z gS)).
  Proof.
    intro H. unfold VerifierCircuitP.chain. cbn [fold_left]. set (w := fneg _). rewrite (EccMulP.zs_g0 CL), gp_0_l.
    rewrite !zs_gp. rewrite <- (EccMulP.zs_one CL gen) at 2 3 4. rewrite <- !(EccMulP.zs_mul CL).
    assert (E : gp (gp (gp (zs (fmul (fmul (fmul z z) z) w) gen) (zs (fmul (fmul z z) fone) gen)) (zs (fmul z fone) gen)) (zs fone gen) = g0).
    { rewrite <- !(EccMulP.zs_add CL). rewrite <- (EccMulP.zs_zero CL gen). f_equal. rewrite <- (cancel_sum z zi H). unfold w. ring. }
    transitivity (gp (zs (fmul (fmul z z) z) gS) (gp (gp (gp (zs (fmul (fmul (fmul z z) z) w) gen) (zs (fmul (fmul z z) fone) gen)) (zs (fmul z fone) gen)) (zs fone gen))); [|rewrite E; apply gp_0_r].
    abel.
  Qed.
  Lemma challenge_fun (t : Rescue (Base C)) (c c' : F) t1 t1' : challenge_after t c t1 -> challenge_after t c' t1' -> c = c' /\ t1 = t1'.
  Proof.
    intros (e & H1 & H2) (e' & H1' & H2'). rewrite H1 in H1'. injection H1' as <- <-. split; [|reflexivity].
    destruct (fl_to_bytes _ _ _ SL c) as (_ & _ & E). destruct (fl_to_bytes _ _ _ SL c') as (_ & _ & E'). apply (ol_inj _ _ _ SO). congruence.
  Qed.
  Lemma conversation_fun K (pf : Proof_ C) ky gx y x yn z t1 t2 t3 t4 y' x' yn' z' t' :
    get_challenge F (append_point (append_point rescue_new K) (pf_r_commitment pf)) = Done (y, t1) ->
    get_challenge F (append_point (append_point (append_point t1 (pf_s_cur_commitment pf)) (pf_t_positive_commitment pf)) (pf_t_negative_commitment pf)) = Done (x, t2) ->
    get_challenge F (append_point t2 (pf_c_commitment pf)) = Done (yn, t3) ->
    get_challenge F (fold_left (append_scalar (C := C)) [ky; pf_rx_opening pf; pf_rxy_opening pf; pf_sx_old_opening pf; pf_sx_cur_opening pf; pf_tx_positive_opening pf; pf_tx_negative_opening pf; pf_sx_new_opening pf; gx]
        (append_point t3 (pf_s_new_commitment pf))) = Done (z, t4) ->
    conversation K pf ky gx y' x' yn' z' t' -> z' = z.
  Proof.
    intros S1 S2 S3 S4 (t1' & t2' & t3' & H1 & H2 & H3 & H4). cbn [fold_left] in S4.
    rewrite !append_point_eq, <- !appended_app in S1. cbn [app] in S1. apply (challenge_spec CL) in S1. destruct (challenge_fun _ _ _ _ _ H1 S1) as [-> ->].
    rewrite !append_point_eq, <- !appended_app in S2. cbn [app] in S2. apply (challenge_spec CL) in S2. destruct (challenge_fun _ _ _ _ _ H2 S2) as [-> ->].
    rewrite !append_point_eq in S3. apply (challenge_spec CL) in S3. destruct (challenge_fun _ _ _ _ _ H3 S3) as [-> ->].
    rewrite !append_scalar_eq, !append_point_eq, <- !appended_app in S4. cbn [app] in S4. apply (challenge_spec CL) in S4. destruct (challenge_fun _ _ _ _ _ H4 S4) as [-> _]. reflexivity.
  Qed.

  Definition plain (z : F) (gS gsn ggo : G) : G := chain z [gsn; ggo] (zs z (zs z (zs z gS))).
  Lemma combine_plain z (S sn go : C) gS gsn ggo : rep S gS -> rep sn gsn -> rep go ggo ->
    rep (combine_commitments z c_zero [S; c_zero; c_zero; c_zero; sn; go]) (plain z gS gsn ggo).
  Proof.
    intros H1 H2 H3. unfold combine_commitments, plain, VerifierCircuitP.chain. cbn [fold_left]. pose proof (rep0 CL) as H0.
    apply rep_add; [|exact H3]. apply (rep_mul CL). apply rep_add; [|exact H2]. apply (rep_mul CL).
    rewrite <- (gp_0_r (zs z (zs z (zs z gS)))). apply rep_add; [|exact H0]. apply (rep_mul CL).
    rewrite <- (gp_0_r (zs z (zs z gS))). apply rep_add; [|exact H0]. apply (rep_mul CL).
    rewrite <- (gp_0_r (zs z gS)). apply rep_add; [|exact H0]. apply (rep_mul CL).
    rewrite <- (gp_0_l _ gS). apply rep_add; [|exact H1]. rewrite <- (EccMulP.zs_g0 CL z). apply (rep_mul CL), H0.
  Qed.
  Lemma virtual_rep z zi (S sn go : C) gS gsn ggo : fmul z zi = fone -> rep S gS -> rep sn gsn -> rep go ggo ->
    let Sv := c_add S (c_mul c_one (fneg (fadd (fadd zi (fmul zi zi)) (fmul zi (fmul zi zi))))) in
    let Dp := c_mul (c_mul (c_mul S z) z) z in
    let T := match c_get_xy Dp with Some _ => c_one | None => c_mul c_one (fneg zi) end in
    rep (combine_commitments z c_zero [Sv; c_one; c_one; c_one; sn; go]) (plain z gS gsn ggo) /\ valid Sv /\ valid T /\ valid Dp /\ passes z Sv T Dp.
  Proof.
    intros Hz H1 H2 H3 Sv Dp T. pose proof rep1 as HO. set (w := fneg (fadd (fadd zi (fmul zi zi)) (fmul zi (fmul zi zi)))) in *.
    assert (HSv : rep Sv (gp gS (zs w gen))) by (apply rep_add; [exact H1|apply (rep_mul CL), HO]).
    assert (HD : rep Dp (zs z (zs z (zs z gS)))) by (repeat apply (rep_mul CL); exact H1).
    assert (HT : exists gT, rep T gT /\ gT <> g0 /\ (zs z (zs z (zs z gS)) = g0 -> gp (zs z gT) gen = g0)).
    { unfold T. rewrite (cl_get_xy _ _ _ _ _ CL _ _ HD). pose proof (cl_gen_nonzero _ _ _ _ _ CL) as NZ.
      destruct (cl_point _ _ _ _ _ CL (zs z (zs z (zs z gS)))) as [[a b]|] eqn:EP.
      - exists gen. split; [exact HO|]. split; [exact NZ|]. intro E. rewrite E, (cl_infinity _ _ _ _ _ CL) in EP. discriminate EP.
      - exists (zs (fneg zi) gen). split; [apply (rep_mul CL), HO|]. split.
        + intro E. destruct (EccMulP.zs_zero_inv CL _ _ E) as [E0|E0]; [|exact (NZ E0)].
          apply (fone_neq_zero SO). rewrite <- Hz. transitivity (fneg (fmul z (fneg zi))); [ring|rewrite E0; ring].
        + intros _. rewrite <- (EccMulP.zs_mul CL). rewrite <- (EccMulP.zs_one CL gen) at 2. rewrite <- (EccMulP.zs_add CL), <- (EccMulP.zs_zero CL gen). f_equal.
          transitivity (fadd (fneg (fmul z zi)) fone); [ring|]. rewrite Hz. ring. }
    destruct HT as (gT & HT & NT & HTz).
    split; [|split; [eexists; exact HSv|split; [eexists; exact HT|split; [eexists; exact HD|]]]].
    - unfold plain. rewrite <- (virtual_chain z zi gS Hz). fold w. unfold combine_commitments, VerifierCircuitP.chain. cbn [fold_left].
      pose proof (rep0 CL) as H0. repeat (apply rep_add; [apply (rep_mul CL)|assumption]). exact H0.
    - exists (gp gS (zs w gen)), gT, (zs z (zs z (zs z gS))). split; [exact HSv|]. split; [exact HT|]. split; [exact HD|]. split; [exact (virtual_chain z zi gS Hz)|]. split; [exact NT|exact HTz].
  Qed.

  Variable (P : Params C) (gs : list G).
  Hypothesis (HP : good_params P) (HG : Forall2 rep (p_generators P) gs).
  Notation k := (p_k P).
  Notation n := (p_n P).

  Theorem fake_ok (circuit : Var -> CS F unit) t (inputs : list F) K v dm M M' fuel : machine_ok M -> machine_ok M' ->
    2 <= k -> laid_out false circuit t -> length inputs = length (l_inputs t) - 1 -> length (l_lcs t) < p_d P ->
    honest_leftovers P circuit dm -> y_new dm = fzero ->
    commitment_to (p_generators P) false v K -> (forall i, coeff v i = input_at (l_inputs t) (fone :: inputs) i) ->
    (fake M fuel P circuit inputs K dm = Running /\ exists t, reached t /\ no_challenge (C := C) fuel t) \/
    exists pf Sv T Dp, fake M fuel P circuit inputs K dm = Done (Ok (pf, virtual_left Sv dm, T, Dp)) /\ well_formed_proof k pf (virtual_left Sv dm) /\
      valid T /\ valid Dp /\ valid Sv /\
      pf_r_commitment pf = c_zero /\ pf_s_cur_commitment pf = c_one /\ pf_t_positive_commitment pf = c_one /\ pf_t_negative_commitment pf = c_one /\
      (fuel <= 256 -> exists L' D forks, proof_verify M' pf (virtual_left Sv dm) P circuit inputs (Some K) = Done (Ok (true, L', D, forks)) /\
         deferred_verify D k = Some true /\ honest_leftovers P circuit L' /\ verified_exactly K pf (virtual_left Sv dm) L' D forks /\
         forall y x yn z t', conversation K pf (d_ky_opening D) (d_gx_old_opening D) y x yn z t' -> passes (get_challenge_scalar z) Sv T Dp).
  Proof.
    intros HM HM' Hk HT Hin HQ Hd HY0 HKv Hkc.
    assert (Hn1 : p_n P >= 1). { destruct HP as (_ & _ & E & _). pose proof (Nat.pow_nonzero 2 k). lia. }
    pose proof Hd as Hd0.
    apply (honest_iff CL P HP gs HG) in Hd. destruct Hd as (cs & cis & sx0 & Hroot & Hinv & Hlen & Hgo & _ & _).
    pose proof HP as (Hk30 & Pd & Pn & Pg & HVg). pose proof (g_len CL P HP gs HG) as GL.
    assert (Hcs : cs <> []). { intros ->. inversion Hroot as [E|]. rewrite <- E in Hlen. cbn [length] in Hlen. lia. }
    assert (Lcs : length cs = k) by (rewrite <- Hlen; symmetry; exact (Forall2_len _ _ _ Hroot)).
    unfold fake. cbv zeta. rewrite (rooted_eq _ _ Hroot). step. rewrite (invert_all_eq SL _ _ Hinv). step.
    rewrite (inputmap_synthesize _ _ HT). step.
    destruct (laid_out_ok _ _ _ HT) as (OK & _ & _).
    pose proof (inputs_head _ _ _ HT) as LI.
    destruct (build_ky_ok (length (l_lcs t)) (l_inputs t) (fone :: inputs) [fzero]) as (ky & Eky & Lky & Cky);
      [cbn [length]; lia | apply lo_sorted, OK | apply lo_range, OK | cbn [length]; lia |]. cbn [length] in Lky.
    rewrite Eky. step. pose proof (commit_l CL P k gs eq_refl Pd Pn Pg HG Hk30) as CM. pose proof (open_l CL P k eq_refl Pd Pn Pg Hk30) as OP.
    assert (HKc : forall i, coeff ky i = coeff v i).
    { intro i. rewrite Hkc, Cky. destruct i as [|i]; [|reflexivity]. cbn [length Nat.ltb Nat.leb]. symmetry. unfold coeff. cbn [nth].
      pose proof (lo_range _ OK) as LR. clear - LR. revert LR. generalize (fone :: inputs). induction (l_inputs t) as [|a l IH]; intros [|u vl] LR; try reflexivity.
      inversion LR as [|? ? H1 H2]; subst. cbn [input_at]. destruct (Nat.eqb_spec a 0) as [->|]; [lia|]. apply IH, H2. }
    assert (HK : lcom CL k gs ky K).
    { apply (lcom_iff CL P HP gs HG) in HKv. destruct HKv as [W1 W3]. split; [lia|]. rewrite <- (map_length vs) in *. rewrite zsum_first in *. rewrite (zsum_coeff CL _ _ gs HKc). exact W3. }
    pose proof (live_new (F := Base C)) as T0.
    pose proof (live_point CL _ c_zero (live_point CL _ K T0)) as T1.
    destruct (live_challenge CL F _ T1) as (y & tr1 & Ey & T2). rewrite Ey. step.
    pose proof (challenge_nz CL _ _ _ Ey) as Yn. destruct (finvert_some SL y Yn) as (yi & Eyi & Hyi).
    pose proof (live_point CL _ c_one (live_point CL _ c_one (live_point CL _ c_one T2))) as T3.
    destruct (live_challenge CL F _ T3) as (x & tr2 & Ex & T4). rewrite Ex. step.
    pose proof (challenge_nz CL _ _ _ Ex) as Xn. destruct (finvert_some SL x Xn) as (xi & Exi & Hxi).
    pose proof (live_point CL _ c_zero T4) as T5.
    destruct (live_challenge CL F _ T5) as (yn & tr3 & Eyn & T6). rewrite Eyn. step.
    destruct (compute_sx_eq CL P circuit t yn HT) as (u & w & z0 & Esx & _). pose proof (sx_vec_length n u w z0) as Lsx.
    set (sx := sx_vec n u w z0) in *. clearbody sx. rewrite Esx. step.
    destruct (CM M sx HM) as (sncom & Esn & Hsn); [lia|]. rewrite Esn. step. rewrite OP. step. rewrite Exi. step.
    rewrite (coeffs_b SL x cs cis Hcs Hinv). step. set (gx := gcoeffs (map fsquare cs) (prod_ cis)) in *.
    rewrite (rooted_sq SL _ _ Hroot). fold gx.
    assert (Lgx : length gx = 2 ^ k) by (unfold gx; rewrite coeffs_length, map_length, Lcs; reflexivity).
    set (tx := fneg (fmul (fmul (eval_at ky y) (pow F y (exp64 n))) xi)).
    cbn [fold_left].
    match goal with |- context [get_challenge F ?a] => set (ta := a) end.
    assert (TA : live ta) by (unfold ta; repeat apply (live_scalar CL); apply (live_point CL); exact T6).
    destruct (live_challenge CL F _ TA) as (zz & tb & Ez & TB). rewrite Ez. step. set (z := get_challenge_scalar zz).
    destruct (challenge_nonzero SL SL zz) as (zi & Ezi & Hzi). fold z in Ezi, Hzi. rewrite Ezi. step. rewrite OP. step.
    set (c := fsub (fmul tx (fmul zi zi)) (fmul (eval_at sx x) (fmul (fmul zi zi) (fmul zi zi)))).
    set (px0 := repeat fzero (p_d P)).
    assert (Lp0 : length px0 = length gs) by (unfold px0; rewrite repeat_length; lia).
    assert (Vp0 : eval_at px0 x = fzero) by (unfold px0; apply (eval_repeat SO)).
    assert (Hp0 : rep c_zero (zsum (map vs px0) gs)).
    { unfold px0. rewrite (OpeningP.zsum_zero CL). apply rep0. }
    set (S := c_mul (hd c_zero (p_generators P)) c).
    assert (HS : length [c] <= length gs /\ rep S (zsum (map vs [c]) (firstn (length [c]) gs))).
    { unfold S. clear - HG GL Hk. pose proof (Nat.pow_nonzero 2 k). split; [cbn [length]; lia|]. destruct HG as [|g g' gl gl' Hg _]; [cbn [length] in GL; lia|].
      cbn [hd length firstn map MultiexpP.zsum]. rewrite gp_0_r. apply rep_mul, Hg. }
    destruct (combine_ok CL z gs x [[c]; []; []; []; sx; gx] [S; c_zero; c_zero; c_zero; sncom; g_new dm] px0 c_zero fzero)
      as (Lpx & Hpx & Vpx); [| exact Lp0 | exact Hp0 | symmetry; exact Vp0 |].
    { constructor; [exact HS|]. repeat constructor; rewrite ?GL; try (apply Hsn); try (cbn [length]; lia); try (apply rep0); try (rewrite Lgx; lia).
      rewrite Lgx, <- GL, firstn_all. exact Hgo. }
    assert (Ec1 : eval_at [c] x = c) by (rewrite (eval_cons SO), eval_nil; apply (one_coeff CL)).
    cbn [map] in Vpx. rewrite Ec1 in Vpx.
    destruct (virtual_rep z zi S sncom (g_new dm) _ _ _ Hzi (proj2 HS) (proj2 Hsn) Hgo) as (HVr & HPass).
    match type of HVr with rep (combine_commitments _ _ [?v1; _; _; _; _; _]) _ => set (Sv := v1) in * end.
    assert (Hpx2 : rep (combine_commitments z c_zero [Sv; c_one; c_one; c_one; sncom; g_new dm]) (zsum (map vs (fold_left (fun px poly => add_zip (mul_px px z) poly) [[c]; []; []; []; sx; gx] px0)) gs)).
    { rewrite (rep_fun CL _ _ _ Hpx (combine_plain z S sncom (g_new dm) _ _ _ (proj2 HS) (proj2 Hsn) Hgo)). exact HVr. }
    clear Hpx. rename Hpx2 into Hpx.
    cbn [fold_left] in Lpx, Hpx, Vpx. match type of Lpx with length ?p = _ => set (px := p) in * end. clearbody px.
    match goal with |- context [new_proof M fuel tb ?i _ _] => set (instances := i) end.
    assert (HI : Forall (fun ic => length (snd ic) <= 2 ^ k) instances).
    { unfold instances. repeat (constructor; [cbn [snd]; rewrite ?add_zip_length; cbn [length]; lia|]). constructor. }
    destruct (ipa_complete CL M fuel k (p_generators P) gs tb instances HM ltac:(lia) HG Pg TB HI)
      as [[ER EN]|(ipf & packed & g & tc & EP & TC & (cs' & cis' & Lcs' & Hroot' & Hinv' & Hfold) & HWf & HVf)].
    { left. rewrite ER. split; [reflexivity|exact EN]. }
    right. rewrite EP. step.
    assert (Hr' : rooted packed cs'). { unfold rooted. clear -Hroot'. induction Hroot'; constructor; assumption. }
    assert (Hg' : rep g (zsum (map vs (gcoeffs (map fsquare cs') (prod_ cis'))) gs)).
    { pose proof (fold_rep CL (combine cs' cis') _ _ HG) as HR. rewrite Hfold in HR.
      rewrite (gfold_coeffs CL cs' cis' gs (Forall2_len _ _ _ Hinv') Hinv') in HR by (rewrite Lcs'; exact GL).
      inversion HR; subst. assumption. }
    fold S. fold Sv. set (Dp := c_mul (c_mul (c_mul S z) z) z) in *.
    match goal with |- context [mkProof c_zero c_one c_one c_one c_zero sncom fzero fzero fzero fzero ?tt fzero fzero ipf] => set (pf := mkProof c_zero c_one c_one c_one c_zero sncom fzero fzero fzero fzero tt fzero fzero ipf) end.
    match goal with |- context [(pf, _, ?TT, Dp)] => set (T := TT) in * end.
    assert (EL : mkLeft Sv fzero (g_new dm) (challenges_sq_packed_new dm) = virtual_left Sv dm) by (unfold virtual_left; rewrite HY0; reflexivity). rewrite EL.
    destruct HPass as (VSv & VT & VD & HPass).
    assert (HWfp : well_formed_proof k pf (virtual_left Sv dm)).
    { assert (V0 : valid (c_zero : C)) by (eexists; exact (rep0 CL)). assert (V1 : valid (c_one : C)) by (eexists; exact (cl_rep_one _ _ _ _ _ CL)).
      split; [|split; [exact HWf|]].
      - unfold pf, virtual_left. cbn [pf_r_commitment pf_s_cur_commitment pf_t_positive_commitment pf_t_negative_commitment pf_c_commitment pf_s_new_commitment s_new_commitment g_new].
        repeat (constructor; [first [assumption | eexists; exact (proj2 Hsn) | eexists; exact Hgo]|]). constructor.
      - cbn [virtual_left challenges_sq_packed_new]. split; [intro E0; rewrite E0 in Hlen; cbn [length] in Hlen; lia|].
        clear - Hroot. unfold rooted in Hroot. induction Hroot; constructor; [congruence|assumption]. }
    exists pf, Sv, T, Dp. split; [reflexivity|]. split; [exact HWfp|]. split; [exact VT|]. split; [exact VD|]. split; [exact VSv|].
    do 4 (split; [reflexivity|]). intros Hfuel.
    rewrite <- EL in *. clear EL.
    match goal with |- exists L' D forks, ?E = _ /\ _ => assert (HPV : exists L' D forks, E = Done (Ok (true, L', D, forks)) /\ deferred_verify D k = Some true /\ honest_leftovers P circuit L' /\
        strictly pf (mkLeft Sv fzero (g_new dm) (challenges_sq_packed_new dm)) K (d_ky_opening D) (d_gx_old_opening D) /\
        forall y' x' yn' z' t'', conversation K pf (d_ky_opening D) (d_gx_old_opening D) y' x' yn' z' t'' -> z' = zz) end.
    {
    unfold proof_verify. cbv zeta. rewrite (inputmap_synthesize _ _ HT). step.
    unfold usize_sub at 1. rewrite (proj2 (Nat.leb_le 1 (length (l_inputs t)))) by lia. step.
    rewrite (proj2 (Nat.eqb_eq _ _) Hin). step. rewrite Eky. step.
    unfold pf.
    cbn [pf_r_commitment pf_s_cur_commitment pf_t_positive_commitment pf_t_negative_commitment pf_c_commitment pf_s_new_commitment
         pf_rx_opening pf_rxy_opening pf_sx_old_opening pf_sx_cur_opening pf_tx_positive_opening pf_tx_negative_opening pf_sx_new_opening pf_inner_product
         challenges_sq_packed_new g_new y_new s_new_commitment].
    rewrite Ey. step. rewrite Ex. step. rewrite Eyn. step. rewrite OP. step.
    rewrite (rooted_eq _ _ Hroot). step. rewrite (invert_all_eq SL _ _ Hinv). step. rewrite (coeffs_b SL x cs cis Hcs Hinv). step.
    fold gx. fold ta. rewrite Ez. step. fold z.
    match goal with |- context [verify_proof ipf tb ?i k] => set (vinst := i) end.
    assert (HSee : Forall2 (sees CL k gs) instances vinst).
    { apply (five_instances CL P k gs eq_refl Pd Pn Pg HG Hk30 x y fzero yn (2 ^ k) z px [] px0 ky);
        [lia | exact Hpx | | cbn [length]; lia | cbn [length]; lia | | | | | | | lia | exact HK | reflexivity].
      - rewrite (combine_forged CL z zi tx (eval_at sx x) (eval_at gx x) Hzi). fold c. exact Vpx.
      - cbn [map MultiexpP.zsum]. apply rep0.
      - rewrite eval_nil. apply (zero_mul CL).
      - split; [lia|]. rewrite <- (map_length vs), zsum_first. exact Hp0.
      - symmetry. apply (eval_repeat SO).
      - symmetry. apply (eval_repeat SO).
      - symmetry. apply (eval_repeat SO). }
    destruct (HVf vinst HSee) as [[H256 _]|(forks & EV & HStr)]; [lia|]. rewrite EV. step.
    assert (Hcs' : cs' <> []) by (intros ->; cbn [length] in Lcs'; lia).
    rewrite (rooted_eq _ _ Hr'). step. rewrite (invert_all_eq SL _ _ Hinv'). step.
    rewrite !(coeffs_b SL _ cs' cis' Hcs' Hinv'). step.
    eexists. eexists. eexists. split; [reflexivity|]. split; [|split; [|split]].
    - match goal with |- deferred_verify ?d k = _ => set (D := d) end.
      assert (Hx' : fmul (d_x D) xi = fone) by exact Hxi. assert (Hy' : fmul (d_y_cur D) yi = fone) by exact Hyi.
      destruct (compute_exact SL D k xi yi ltac:(lia) Hx' Hy') as (lhs & rhs & ED & HE).
      assert (Elr : lhs = rhs).
      { apply HE, (forged_equation CL); [exact Hxi | reflexivity | reflexivity|]. unfold D, tx.
        cbn [d_tx_positive_opening d_ky_opening d_y_cur]. rewrite (pow64 SO) by (pose proof (pow30 P k eq_refl Pd Pn Pg Hk30); lia). do 4 f_equal. destruct (pow4_div k Hk). lia. }
      unfold deferred_verify. rewrite ED. cbn [obind]. unfold D.
      cbn [d_challenges_sq_packed_old d_challenges_sq_packed_new d_x d_y_cur d_y_old d_y_new d_gx_old_opening d_b_x d_b_xy d_b_y_old d_b_y_cur d_b_y_new].
      rewrite (rooted_eq _ _ Hroot). step. rewrite (invert_all_eq SL _ _ Hinv). step. rewrite (coeffs_b SL x cs cis Hcs Hinv). step.
      rewrite (rooted_eq _ _ Hr'). step. rewrite (invert_all_eq SL _ _ Hinv'). step.
      rewrite !(coeffs_b SL _ cs' cis' Hcs' Hinv'). step. fold gx. rewrite Elr, !(feqb_refl SO). reflexivity.
    - apply (honest_iff CL P HP gs HG).
      exists cs', cis', sx. cbn [challenges_sq_packed_new g_new y_new s_new_commitment].
      split; [exact Hr'|]. split; [exact Hinv'|]. split; [rewrite (Forall2_len _ _ _ Hr'); exact Lcs'|].
      split; [exact Hg'|]. split; [exact Esx|exact Hsn].
    - exists y, x, yn, zz, tr1, tr2, tr3, tb. split; [exact Ey|]. split; [exact Ex|]. split; [exact Eyn|]. split; [exact Ez|exact HStr].
    - intros y' x' yn' z' t'' HC. exact (conversation_fun K pf (eval_at ky y) (eval_at gx x) y x yn zz tr1 tr2 tr3 tb y' x' yn' z' t'' Ey Ex Eyn Ez HC). }
    destruct HPV as (L' & D & forks & EV & HDf & HHL & HSt & HZ). exists L', D, forks. split; [exact EV|]. split; [exact HDf|]. split; [exact HHL|]. split.
    - destruct (proof_verify_spec CL P gs HP HG M' circuit t inputs pf (mkLeft Sv fzero (g_new dm) (challenges_sq_packed_new dm)) (Some K) HM' HT Hin HQ HWfp ltac:(eexists; exact (proj2 HK)))
        as (k0 & _ & [[E0 _]|(K' & b & L2 & D2 & forks2 & E0 & -> & _ & HX)]); [rewrite EV in E0; discriminate E0|].
      assert (b = true /\ L2 = L' /\ D2 = D /\ forks2 = forks) as (-> & -> & -> & ->) by (rewrite EV in E0; injection E0 as <- <- <- <-; repeat split; reflexivity).
      exact (HX eq_refl HSt).
    - intros y' x' yn' z' t'' HC. rewrite (HZ _ _ _ _ _ HC). exact HPass.
  Qed.
End Fake_.
