(** The forged proofs are accepted. *)
From Coq Require Import List Bool ZArith Arith Lia Ring Field.
From Verif Require Import Lib.AbGroup Lib.Abel Model.FieldTrait Model.Circuits Model.Synthesis Model.Dev Model.Curve Model.Threads Model.Util Model.Rescue Model.Params Model.Opening Model.Proofs
  Spec.FieldLaws Spec.CircuitSpec Spec.CurveSpec Spec.CurveLaws Spec.UtilSpec Spec.SystemSpec Spec.ProofSpec Spec.ForgerySpec
  Proofs.FieldGen Proofs.ZtoF Proofs.BatchInvertP Proofs.SumP Proofs.FftP Proofs.ParFftP Proofs.PolyMulP Proofs.SystemP Proofs.CurveTop Proofs.MultiexpP Proofs.FoldP Proofs.ChallengeP Proofs.ParamsP
  Proofs.UtilTop Proofs.IdentityP Proofs.DeferredP Proofs.OpeningP Proofs.OpeningTop Proofs.ProverLemmas Proofs.ProverP Proofs.ProverTop Proofs.DeferredTop.
Import ListNotations.
Open Scope nat_scope.
Open Scope list_scope.

Lemma inputs_head {F : Field} ran circuit (s : layout F) : laid_out ran circuit s -> 1 <= length (l_inputs s).
Proof.
  intro H. refine (lay_inv (fun s => 1 <= length (l_inputs s)) _ _ _ _ ran _ _ _ _ _ H).
  - intros t v E. unfold lay_wire. destruct (l_half t); exact E.
  - intros t v E. unfold lay_input. destruct (lay_wire t v) as [t' x] eqn:EW. cbn [fst l_inputs]. rewrite app_length. cbn [length]. lia.
  - intros t lc E _. exact E.
  - intros t a b c E. exact E.
  - cbn. lia.
Qed.

Section Forgery_.
  Context {C : Curve} {q vb r vs} (CL : CurveLaws C q vb r vs).
  Notation F := (Scalar C).
  Notation G := (cl_group _ _ _ _ _ CL).
  Notation rep := (rep CL).
  Notation zsum := (zsum CL).
  Notation gcoeffs := compute_g_coeffs_for_inner_product.
  Let BL := cl_base _ _ _ _ _ CL.
  Let SL := cl_scalar _ _ _ _ _ CL.
  Let SO := fl_ops _ _ _ SL.
  Add Field Fs : (ffield SO).
  Ltac step := cbn [out_bind out_try out_opt out_assert obind].

  Lemma combine_forged (z zi t s g : F) : fmul z zi = fone ->
    let c := fsub (fmul t (fmul zi zi)) (fmul s (fmul (fmul zi zi) (fmul zi zi))) in
    combine_openings (C := C) z fzero [fzero; fzero; t; fzero; fzero; g] = combine_openings (C := C) z fzero [c; fzero; fzero; fzero; s; g].
  Proof.
    intros Hz c. unfold combine_openings. cbn [fold_left]. unfold c.
    assert (E2 : fmul (fmul z z) (fmul zi zi) = fone). { transitivity (fmul (fmul z zi) (fmul z zi)); [ring|]. rewrite Hz. ring. }
    assert (E4 : fmul (fmul (fmul z z) (fmul zi zi)) (fmul (fmul z z) (fmul zi zi)) = fone) by (rewrite E2; ring).
    transitivity (fadd (fmul t (fmul z (fmul z z))) g); [ring|].
    transitivity (fadd (fmul (fmul t (fmul (fmul z z) (fmul zi zi))) (fmul z (fmul z z))) (fadd (fmul s (fmul z (fsub fone (fmul (fmul (fmul z z) (fmul zi zi)) (fmul (fmul z z) (fmul zi zi)))))) g)); [|ring].
    rewrite E4, E2. ring.
  Qed.
  Lemma forged_equation (D : Deferred F) n xi yi : fmul (d_x D) xi = fone ->
    d_rx_opening D = fzero -> d_tx_negative_opening D = fzero ->
    d_tx_positive_opening D = fneg (fmul (fmul (d_ky_opening D) (fpow (d_y_cur D) n)) xi) -> deferred_equation n D xi yi.
  Proof.
    intros Hx E1 E2 E3. unfold deferred_equation. rewrite E1, E2, E3.
    transitivity (fneg (fmul (d_ky_opening D) (fpow (d_y_cur D) n))); [ring|].
    transitivity (fneg (fmul (fmul (d_ky_opening D) (fpow (d_y_cur D) n)) (fmul (d_x D) xi))); [rewrite Hx; ring|ring].
  Qed.

  Lemma one_coeff (c x : F) : fadd c (fmul x fzero) = c. Proof. ring. Qed.
  Lemma zero_mul (c : F) : fzero = fmul fzero c. Proof. ring. Qed.

  Variable (P : Params C) (gs : list G).
  Hypothesis (HP : good_params P) (HG : Forall2 rep (p_generators P) gs).
  Notation k := (p_k P).
  Notation n := (p_n P).

  Lemma forged_left M circuit t S dm : machine_ok M -> laid_out false circuit t -> honest_leftovers P circuit dm -> valid S ->
    leftovers_verify M (mkLeft S fzero (g_new dm) (challenges_sq_packed_new dm)) P circuit = Done (Ok true).
  Proof.
    intros HM HT HL VS. pose proof HP as (_ & _ & Pn & _).
    assert (Hn1 : p_n P >= 1) by (pose proof (Nat.pow_nonzero 2 k); lia).
    apply (honest_iff CL P HP gs HG) in HL. destruct HL as (cs & cis & sx & H1 & H2 & H3 & H4 & _ & _).
    set (L := mkLeft _ _ _ _). assert (V2 : valid (g_new dm)) by (eexists; exact H4).
    destruct (leftovers_char CL P HP gs HG M L circuit t HM Hn1 HT VS V2) as (_ & _ & H).
    destruct (H H3) as (g & sx' & D & b & F1 & F2 & F3 & -> & F5).
    - clear - H1. unfold L, rooted in *. cbn [challenges_sq_packed_new]. induction H1; constructor; [congruence|assumption].
    - do 2 f_equal. apply F5. split.
      + right. apply (folds_iff CL P HP gs HG _ _ H3) in F1. destruct F1 as (cs' & cis' & A1 & A2 & A3). rewrite (rooted_fun _ _ _ A1 H1) in *.
        eexists. split; [exact A3|]. rewrite (inverses_unique SL _ _ _ A2 H2). exact H4.
      + left. destruct (sx_zero CL P circuit t HT) as (sx0 & E0 & _ & Z0). cbn [L y_new] in F2. assert (sx' = sx0) as -> by congruence.
        apply (lcom_iff CL P HP gs HG) in F3. destruct F3 as [_ F3]. rewrite (zsum_zeros CL _ Z0) in F3. rewrite <- (cl_infinity _ _ _ _ _ CL). exact F3.
  Qed.

  Theorem forgery (circuit : Var -> CS F unit) t (inputs : list F) M M' fuel : (exists c : F, magic_root c) -> machine_ok M -> machine_ok M' ->
    2 <= k -> laid_out false circuit t -> length inputs = length (l_inputs t) - 1 -> length (l_lcs t) < p_d P ->
    (forge M fuel P circuit inputs = Running /\ exists t, reached t /\ no_challenge (C := C) fuel t) \/
    exists L pf, forge M fuel P circuit inputs = Done (Ok (L, pf)) /\ leftovers_verify M' L P circuit = Done (Ok true) /\
      (fuel <= 256 -> exists L' D forks, proof_verify M' pf L P circuit inputs None = Done (Ok (true, L', D, forks)) /\
         deferred_verify D k = Some true /\ leftovers_verify M' L' P circuit = Done (Ok true)).
  Proof.
    intros Hmagic HM HM' Hk HT Hin HQ.
    assert (Hn1 : p_n P >= 1). { destruct HP as (_ & _ & E & _). pose proof (Nat.pow_nonzero 2 k). lia. }
    destruct (dummy_top CL M P circuit t Hmagic HM HP Hn1 HT) as (dm & Ed & Hd). pose proof Hd as Hd0.
    apply (honest_iff CL P HP gs HG) in Hd. destruct Hd as (cs & cis & sx0 & Hroot & Hinv & Hlen & Hgo & _ & _).
    pose proof HP as (Hk30 & Pd & Pn & Pg & HVg). pose proof (g_len CL P HP gs HG) as GL.
    assert (Hcs : cs <> []). { intros ->. inversion Hroot as [E|]. rewrite <- E in Hlen. cbn [length] in Hlen. lia. }
    assert (Lcs : length cs = k) by (rewrite <- Hlen; symmetry; exact (Forall2_len _ _ _ Hroot)).
    unfold forge. cbv zeta. rewrite Ed. step. rewrite (rooted_eq _ _ Hroot). step. rewrite (invert_all_eq SL _ _ Hinv). step.
    rewrite (inputmap_synthesize _ _ HT). step.
    destruct (laid_out_ok _ _ _ HT) as (OK & _ & _).
    pose proof (inputs_head _ _ _ HT) as LI.
    destruct (build_ky_ok (length (l_lcs t)) (l_inputs t) (fone :: inputs) [fzero]) as (ky & Eky & Lky & _);
      [cbn [length]; lia | apply lo_sorted, OK | apply lo_range, OK | cbn [length]; lia |]. cbn [length] in Lky.
    rewrite Eky. step. pose proof (commit_l CL P k gs eq_refl Pd Pn Pg HG Hk30) as CM. pose proof (open_l CL P k eq_refl Pd Pn Pg Hk30) as OP.
    destruct (CM M ky HM) as (kcom & Ekc & Hkc); [lia|]. rewrite Ekc. step.
    pose proof (live_new (F := Base C)) as T0.
    pose proof (live_point CL _ c_zero (live_point CL _ kcom T0)) as T1.
    destruct (live_challenge CL F _ T1) as (y & tr1 & Ey & T2). rewrite Ey. step.
    pose proof (challenge_nz CL _ _ _ Ey) as Yn. destruct (finvert_some SL y Yn) as (yi & Eyi & Hyi).
    pose proof (live_point CL _ c_zero (live_point CL _ c_zero (live_point CL _ c_zero T2))) as T3.
    destruct (live_challenge CL F _ T3) as (x & tr2 & Ex & T4). rewrite Ex. step.
    pose proof (challenge_nz CL _ _ _ Ex) as Xn. destruct (finvert_some SL x Xn) as (xi & Exi & Hxi).
    pose proof (live_point CL _ c_zero T4) as T5.
    destruct (live_challenge CL F _ T5) as (yn & tr3 & Eyn & T6). rewrite Eyn. step.
    destruct (compute_sx_eq CL P circuit t yn HT) as (u & w & z0 & Esx & _). pose proof (sx_vec_length n u w z0) as Lsx.
    set (sx := sx_vec n u w z0) in *. clearbody sx. rewrite Esx. step.
    destruct (CM M sx HM) as (sncom & Esn & Hsn); [lia|]. rewrite Esn. step. rewrite OP. step. rewrite Exi. step.
    rewrite (coeffs_b SL x cs cis Hcs Hinv). step. set (gx := gcoeffs (map fsquare cs) (prod_ cis)) in *.
    rewrite (rooted_sq SL _ _ Hroot). fold gx.
    assert (Lgx : length gx = 2 ^ k) by (unfold gx; rewrite coeffs_length, map_length, Lcs; reflexivity).
    set (tx := fneg (fmul (fmul (eval_at ky y) (pow F y (exp64 n))) xi)).
    cbn [fold_left].
    match goal with |- context [get_challenge F ?a] => set (ta := a) end.
    assert (TA : live ta) by (unfold ta; repeat apply (live_scalar CL); apply (live_point CL); exact T6).
    destruct (live_challenge CL F _ TA) as (zz & tb & Ez & TB). rewrite Ez. step. set (z := get_challenge_scalar zz).
    destruct (challenge_nonzero SL SL zz) as (zi & Ezi & Hzi). fold z in Ezi, Hzi. rewrite Ezi. step. rewrite OP. step.
    set (c := fsub (fmul tx (fmul zi zi)) (fmul (eval_at sx x) (fmul (fmul zi zi) (fmul zi zi)))).
    set (px0 := repeat fzero (p_d P)).
    assert (Lp0 : length px0 = length gs) by (unfold px0; rewrite repeat_length; lia).
    assert (Vp0 : eval_at px0 x = fzero) by (unfold px0; apply (eval_repeat SO)).
    assert (Hp0 : rep c_zero (zsum (map vs px0) gs)).
    { unfold px0. rewrite (OpeningP.zsum_zero CL). apply rep0. }
    set (S := c_mul (hd c_zero (p_generators P)) c).
    assert (HS : length [c] <= length gs /\ rep S (zsum (map vs [c]) (firstn (length [c]) gs))).
    { unfold S. clear - HG GL Hk. pose proof (Nat.pow_nonzero 2 k). split; [cbn [length]; lia|]. destruct HG as [|g g' gl gl' Hg _]; [cbn [length] in GL; lia|].
      cbn [hd length firstn map MultiexpP.zsum]. rewrite gp_0_r. apply rep_mul, Hg. }
    destruct (combine_ok CL z gs x [[c]; []; []; []; sx; gx] [S; c_zero; c_zero; c_zero; sncom; g_new dm] px0 c_zero fzero)
      as (Lpx & Hpx & Vpx); [| exact Lp0 | exact Hp0 | symmetry; exact Vp0 |].
    { constructor; [exact HS|]. repeat constructor; rewrite ?GL; try (apply Hsn); try (cbn [length]; lia); try (apply rep0); try (rewrite Lgx; lia).
      rewrite Lgx, <- GL, firstn_all. exact Hgo. }
    assert (Ec1 : eval_at [c] x = c) by (rewrite (eval_cons SO), eval_nil; apply one_coeff).
    cbn [map] in Vpx. rewrite Ec1 in Vpx.
    cbn [fold_left] in Lpx, Hpx, Vpx. match type of Lpx with length ?p = _ => set (px := p) in * end. clearbody px.
    match goal with |- context [new_proof M fuel tb ?i _ _] => set (instances := i) end.
    assert (HI : Forall (fun ic => length (snd ic) <= 2 ^ k) instances).
    { unfold instances. repeat (constructor; [cbn [snd]; rewrite ?add_zip_length; cbn [length]; lia|]). constructor. }
    destruct (ipa_complete CL M fuel k (p_generators P) gs tb instances HM ltac:(lia) HG Pg TB HI)
      as [[ER EN]|(ipf & packed & g & tc & EP & TC & (cs' & cis' & Lcs' & Hroot' & Hinv' & Hfold) & HWf & HVf)].
    { left. rewrite ER. split; [reflexivity|exact EN]. }
    right. rewrite EP. step. eexists. eexists. split; [reflexivity|].
    assert (Hr' : rooted packed cs'). { unfold rooted. clear -Hroot'. induction Hroot'; constructor; assumption. }
    assert (Hg' : rep g (zsum (map vs (gcoeffs (map fsquare cs') (prod_ cis'))) gs)).
    { pose proof (fold_rep CL (combine cs' cis') _ _ HG) as HR. rewrite Hfold in HR.
      rewrite (gfold_coeffs CL cs' cis' gs (Forall2_len _ _ _ Hinv') Hinv') in HR by (rewrite Lcs'; exact GL).
      inversion HR; subst. assumption. }
    fold S. split.
    { apply (forged_left _ _ _ _ dm HM' HT Hd0). eexists. exact (proj2 HS). }
    intros Hfuel.
    unfold proof_verify. cbv zeta. rewrite (inputmap_synthesize _ _ HT). step.
    unfold usize_sub at 1. rewrite (proj2 (Nat.leb_le 1 (length (l_inputs t)))) by lia. step.
    rewrite (proj2 (Nat.eqb_eq _ _) Hin). step. rewrite Eky. step.
    destruct (CM M' ky HM') as (K & EK & HK); [lia|]. rewrite EK. step.
    assert (EA : append_point rescue_new K = append_point rescue_new kcom).
    { unfold append_point. rewrite (cl_get_xy _ _ _ _ _ CL _ _ (proj2 HK)), (cl_get_xy _ _ _ _ _ CL _ _ (proj2 Hkc)). reflexivity. }
    cbn [pf_r_commitment pf_s_cur_commitment pf_t_positive_commitment pf_t_negative_commitment pf_c_commitment pf_s_new_commitment
         pf_rx_opening pf_rxy_opening pf_sx_old_opening pf_sx_cur_opening pf_tx_positive_opening pf_tx_negative_opening pf_sx_new_opening pf_inner_product
         challenges_sq_packed_new g_new y_new s_new_commitment].
    rewrite EA, Ey. step. rewrite Ex. step. rewrite Eyn. step. rewrite OP. step.
    rewrite (rooted_eq _ _ Hroot). step. rewrite (invert_all_eq SL _ _ Hinv). step. rewrite (coeffs_b SL x cs cis Hcs Hinv). step.
    fold gx. fold ta. rewrite Ez. step. fold z.
    match goal with |- context [verify_proof ipf tb ?i k] => set (vinst := i) end.
    assert (HSee : Forall2 (sees CL k gs) instances vinst).
    { apply (five_instances CL P k gs eq_refl Pd Pn Pg HG Hk30 x y fzero yn (2 ^ k) z px [] px0 ky);
        [lia | exact Hpx | | cbn [length]; lia | cbn [length]; lia | | | | | | | lia | exact HK | reflexivity].
      - rewrite (combine_forged z zi tx (eval_at sx x) (eval_at gx x) Hzi). fold c. exact Vpx.
      - cbn [map MultiexpP.zsum]. apply rep0.
      - rewrite eval_nil. apply zero_mul.
      - split; [lia|]. rewrite <- (map_length vs), zsum_first. exact Hp0.
      - symmetry. apply (eval_repeat SO).
      - symmetry. apply (eval_repeat SO).
      - symmetry. apply (eval_repeat SO). }
    destruct (HVf vinst HSee) as [[H256 _]|(forks & EV & _)]; [lia|]. rewrite EV. step.
    assert (Hcs' : cs' <> []) by (intros ->; cbn [length] in Lcs'; lia).
    rewrite (rooted_eq _ _ Hr'). step. rewrite (invert_all_eq SL _ _ Hinv'). step.
    rewrite !(coeffs_b SL _ cs' cis' Hcs' Hinv'). step.
    eexists. eexists. eexists. split; [reflexivity|]. split.
    - match goal with |- deferred_verify ?d k = _ => set (D := d) end.
      assert (Hx' : fmul (d_x D) xi = fone) by exact Hxi. assert (Hy' : fmul (d_y_cur D) yi = fone) by exact Hyi.
      destruct (compute_exact SL D k xi yi ltac:(lia) Hx' Hy') as (lhs & rhs & ED & HE).
      assert (Elr : lhs = rhs).
      { apply HE, forged_equation; [exact Hxi | reflexivity | reflexivity|]. unfold D, tx.
        cbn [d_tx_positive_opening d_ky_opening d_y_cur]. rewrite (pow64 SO) by (pose proof (pow30 P k eq_refl Pd Pn Pg Hk30); lia). do 4 f_equal. destruct (pow4_div k Hk). lia. }
      unfold deferred_verify. rewrite ED. cbn [obind]. unfold D.
      cbn [d_challenges_sq_packed_old d_challenges_sq_packed_new d_x d_y_cur d_y_old d_y_new d_gx_old_opening d_b_x d_b_xy d_b_y_old d_b_y_cur d_b_y_new].
      rewrite (rooted_eq _ _ Hroot). step. rewrite (invert_all_eq SL _ _ Hinv). step. rewrite (coeffs_b SL x cs cis Hcs Hinv). step.
      rewrite (rooted_eq _ _ Hr'). step. rewrite (invert_all_eq SL _ _ Hinv'). step.
      rewrite !(coeffs_b SL _ cs' cis' Hcs' Hinv'). step. fold gx. rewrite Elr, !(feqb_refl SO). reflexivity.
    - apply (honest_verify CL P HP gs HG M' _ circuit t HM' Hn1 HT). apply (honest_iff CL P HP gs HG).
      exists cs', cis', sx. cbn [challenges_sq_packed_new g_new y_new s_new_commitment].
      split; [exact Hr'|]. split; [exact Hinv'|]. split; [rewrite (Forall2_len _ _ _ Hr'); exact Lcs'|].
      split; [exact Hg'|]. split; [exact Esx|exact Hsn].
  Qed.
End Forgery_.
