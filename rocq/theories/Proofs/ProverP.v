(** Completeness of the proof system. *)
From Coq Require Import List Bool ZArith Arith Lia Ring Field.
From Verif Require Import Lib.AbGroup Lib.Abel Model.FieldTrait Model.Circuits Model.Synthesis Model.Dev Model.Curve Model.Threads Model.Util Model.Rescue Model.Params Model.Opening Model.Proofs
  Spec.FieldLaws Spec.CircuitSpec Spec.CurveSpec Spec.CurveLaws Spec.UtilSpec Spec.SystemSpec Spec.ProofSpec Spec.VerifySpec
  Proofs.FieldGen Proofs.ZtoF Proofs.BatchInvertP Proofs.SumP Proofs.FftP Proofs.ParFftP Proofs.PolyMulP Proofs.SystemP Proofs.CurveTop Proofs.MultiexpP Proofs.FoldP Proofs.ChallengeP Proofs.ParamsP
  Proofs.UtilTop Proofs.IdentityP Proofs.DeferredP Proofs.OpeningP Proofs.OpeningTop Proofs.ProverLemmas.
Import ListNotations.
Open Scope nat_scope.
Open Scope list_scope.

Section Prover.
  Context {C : Curve} {q vb r vs} (CL : CurveLaws C q vb r vs).
  Notation F := (Scalar C).
  Notation G := (cl_group _ _ _ _ _ CL).
  Notation rep := (rep CL).
  Notation zsum := (zsum CL).
  Notation gcoeffs := compute_g_coeffs_for_inner_product.
  Let BL := cl_base _ _ _ _ _ CL.
  Let SL := cl_scalar _ _ _ _ _ CL.
  Let SO := fl_ops _ _ _ SL.
  Add Field Fs : (ffield SO).

  Variable (P : Params C) (k : nat) (gs : list G).
  Hypothesis (Pk : p_k P = k) (Pd : p_d P = 2 ^ k) (Pn : 4 * p_n P = 2 ^ k) (Pg : length (p_generators P) = 2 ^ k)
    (HG : Forall2 rep (p_generators P) gs) (Hk30 : k <= 30).
  Notation n := (p_n P).

  Lemma gs_len : length gs = 2 ^ k. Proof. rewrite <- Pg. symmetry. exact (Forall2_len _ _ _ HG). Qed.
  Lemma pow30 : (Z.of_nat (2 ^ k) <= 2 ^ 30)%Z.
  Proof. rewrite Nat2Z.inj_pow. change (Z.of_nat 2) with 2%Z. apply Z.pow_le_mono_r; lia. Qed.
  Lemma gens32 : (Z.of_nat (length (p_generators P)) < 2 ^ 32)%Z. Proof. rewrite Pg. pose proof pow30. lia. Qed.
  Lemma bound7 : (Z.of_nat (7 * n + 1) <= 2 ^ 31)%Z. Proof. pose proof pow30. lia. Qed.
  Lemma n64 : (Z.of_nat n < 2 ^ 64)%Z. Proof. pose proof pow30. lia. Qed.
  (** left commitments *)
  Definition lcom (v : list F) (D : C) : Prop := length v <= 2 ^ k /\ rep D (zsum (map vs v) (firstn (length v) gs)).
  Lemma commit_l M v : machine_ok M -> length v <= 2 ^ k -> exists D, commit M P v false = Some D /\ lcom v D.
  Proof.
    intros HM H. destruct (commit_rep CL M P gs v false HM HG gens32) as (D & E & HD); [rewrite Pg; exact H|]. exists D. split; [exact E|]. split; [exact H|exact HD].
  Qed.
  Lemma open_l v x : compute_opening P v x false = Some (eval_at v x).
  Proof.
    rewrite (opening_eq CL) by (first [discriminate | pose proof gens32; lia]). f_equal. cbn [fpow]. ring.
  Qed.

  Lemma five_instances (x y yo yn : F) e (z : F) px rx sy ky (Pc Rc Cc K Q1 Q2 : C) (po ro so sc sn ko : F) :
    length px = 2 ^ k -> rep Pc (zsum (map vs px) gs) -> po = eval_at px x ->
    length rx <= 2 ^ k -> e = 2 ^ k - length rx -> rep Rc (zsum (map vs rx) (skipn (length gs - length rx) gs)) -> ro = fmul (eval_at rx (fmul x y)) (fpow (fmul x y) e) ->
    lcom sy Cc -> so = eval_at sy yo -> sc = eval_at sy y -> sn = eval_at sy yn -> length ky <= length sy -> lcom ky K -> ko = eval_at ky y ->
    Forall2 (sees CL k gs)
      [(mkOpening Q1 po x false, px); (mkOpening Rc ro (fmul x y) true, rx); (mkOpening Cc so yo false, sy);
       (mkOpening Q2 (fadd sc (fmul ko z)) y false, add_zip sy (mul_px ky z)); (mkOpening Cc sn yn false, sy)]
      [mkOpening Pc po x false; mkOpening Rc ro (fmul x y) true; mkOpening Cc so yo false;
       mkOpening (c_add Cc (c_mul K z)) (fadd sc (fmul ko z)) y false; mkOpening Cc sn yn false].
  Proof.
    intros Lpx Hpx Vpx Lrx He Hrc Vrx Hcc VO VC VN Lk HK Vk. pose proof gs_len as GL. pose proof (proj1 Hcc) as Lsy. pose proof (proj1 HK) as Lky.
    assert (TC' : forall (o y' : F), o = eval_at sy y' -> true_opening CL k gs (mkOpening Cc o y' false, sy)).
    { intros o y' Ho. cbn [true_opening po_commitment po_opening po_point po_right_edge position]. split; [lia|]. split; [exact (proj2 Hcc)|]. cbn [fpow]. rewrite Ho. ring. }
    constructor; [|constructor; [|constructor; [|constructor; [|constructor; [|constructor]]]]];
        (split; [reflexivity|]); cbn [fst snd po_commitment po_opening po_point po_right_edge].
      - cbn [true_opening po_commitment po_opening po_point po_right_edge position]. rewrite Lpx. split; [lia|].
        rewrite <- GL, firstn_all. split; [exact Hpx|]. rewrite Vpx. cbn [fpow]. ring.
      - cbn [true_opening po_commitment po_opening po_point po_right_edge position]. split; [lia|].
        split; [exact Hrc|]. rewrite <- He. exact Vrx.
      - apply TC', VO.
      - cbn [true_opening po_commitment po_opening po_point po_right_edge position]. rewrite add_zip_length. split; [lia|]. split.
        + rewrite (zsum_add_zip CL) by (rewrite ?mul_px_length, ?firstn_length; lia). apply rep_add; [exact (proj2 Hcc)|].
          rewrite mul_px_length, firstn_firstn, Nat.min_l by lia. unfold mul_px. rewrite (zsum_scale CL). apply rep_mul. exact (proj2 HK).
        + rewrite (eval_add_zip SL) by (rewrite mul_px_length; lia). rewrite (eval_mul_px SL), VC, Vk. cbn [fpow]. ring.
      - apply TC', VN.
  Qed.

  Variable (prover verifier : Var -> CS F unit) (s t t' : layout F).
  Hypothesis (HT : laid_out true prover s) (HF : laid_out false prover t) (HV : laid_out false verifier t')
    (HS : same_system s t) (HS' : same_system s t') (Hsat : satisfied s) (Hn : l_gates s < n) (HQ : length (l_lcs s) < p_d P).

  Definition LOK (L : Leftovers C) : Prop := exists cs cis sx, rooted (challenges_sq_packed_new L) cs /\ inverses cs cis /\
    length (challenges_sq_packed_new L) = k /\ rep (g_new L) (zsum (map vs (gcoeffs (map fsquare cs) (prod_ cis))) gs) /\
    compute_sx P verifier (y_new L) = Done (Ok sx) /\ lcom sx (s_new_commitment L).

  Lemma n_pos : 2 <= n. Proof. destruct (laid_out_ok _ _ _ HT) as (_ & H & _). lia. Qed.
  Lemma k_pos : 3 <= k.
  Proof. pose proof n_pos. destruct k as [|[|[|k']]]; cbn [Nat.pow] in Pn; lia. Qed.
  Lemma n_eq : n = 2 ^ (k - 2).
  Proof. pose proof k_pos. destruct (pow4_div k ltac:(lia)) as [_ E]. lia. Qed.
  Lemma sx_fact y : exists sx, compute_sx P prover y = Done (Ok sx) /\ compute_sx P verifier y = Done (Ok sx) /\ length sx = 3 * n + 1 /\
    forall x xi, fmul x xi = fone -> eval_at sx x = fmul (fpow x n) (s_value n (l_lcs s) x xi y).
  Proof.
    assert (Htt : same_system t t'). { destruct HS as (A1 & A2 & A3), HS' as (B1 & B2 & B3). split; [congruence|]. split; congruence. }
    assert (HN : l_gates t <= n). { destruct HS as (A1 & _). lia. }
    pose proof (sx_same CL P prover verifier t t' y HF HV Htt) as ES.
    destruct (sx_sy_top CL P prover t HF HN) as [Hx _]. destruct (Hx y) as (sx & E & L & EV). exists sx. split; [exact E|]. split; [congruence|].
    split; [exact L|]. intros x xi Hxi. rewrite (EV x xi Hxi). destruct HS as (_ & -> & _). reflexivity.
  Qed.

  Lemma sy_fact x xi Q : fmul x xi = fone -> exists sy, compute_sy P prover x n Q = Done (Ok sy) /\ length sy = S (length (l_lcs s)) /\
    forall y, eval_at sy y = s_value n (l_lcs s) x xi y.
  Proof.
    intro Hx. assert (HN : l_gates t <= n). { destruct HS as (A1 & _). lia. }
    destruct (sx_sy_top CL P prover t HF HN) as [_ Hy]. destruct (Hy x xi Q Hx) as (sy & E & L & EV). exists sy. split; [exact E|].
    destruct HS as (_ & -> & _). split; [exact L|exact EV].
  Qed.

  Ltac step := cbn [out_bind out_try out_opt out_assert obind].
  Definition ky_com (ky : list F) (kc : option C) : Prop := match kc with None => True | Some K => lcom ky K end.

  (** the final checks of the verification of [pf] hold strictly *)
  Definition strictly (pf : Proof_ C) (L : Leftovers C) (K : C) (ky gx : F) : Prop :=
    exists y x yn zz t1 t2 t3 tb,
      get_challenge F (append_point (append_point rescue_new K) (pf_r_commitment pf)) = Done (y, t1) /\
      get_challenge F (append_point (append_point (append_point t1 (pf_s_cur_commitment pf)) (pf_t_positive_commitment pf)) (pf_t_negative_commitment pf)) = Done (x, t2) /\
      get_challenge F (append_point t2 (pf_c_commitment pf)) = Done (yn, t3) /\
      get_challenge F (fold_left (append_scalar (C := C)) [ky; pf_rx_opening pf; pf_rxy_opening pf; pf_sx_old_opening pf; pf_sx_cur_opening pf; pf_tx_positive_opening pf; pf_tx_negative_opening pf; pf_sx_new_opening pf; gx]
        (append_point t3 (pf_s_new_commitment pf))) = Done (zz, tb) /\
      let z := get_challenge_scalar zz in
      strict (pf_inner_product pf) tb
        [mkOpening (combine_commitments z (pf_r_commitment pf) [s_new_commitment L; pf_s_cur_commitment pf; pf_t_positive_commitment pf; pf_t_negative_commitment pf; pf_s_new_commitment pf; g_new L])
           (combine_openings z (pf_rx_opening pf) [pf_sx_old_opening pf; pf_sx_cur_opening pf; pf_tx_positive_opening pf; pf_tx_negative_opening pf; pf_sx_new_opening pf; gx]) x false;
         mkOpening (pf_r_commitment pf) (pf_rxy_opening pf) (fmul x y) true; mkOpening (pf_c_commitment pf) (pf_sx_old_opening pf) (y_new L) false;
         mkOpening (c_add (pf_c_commitment pf) (c_mul K z)) (fadd (pf_sx_cur_opening pf) (fmul ky z)) y false; mkOpening (pf_c_commitment pf) (pf_sx_new_opening pf) yn false].

  Theorem prover_complete M M' fuel L : machine_ok M -> machine_ok M' -> LOK L ->
    (proof_new M fuel P prover L = Running /\ exists t, reached t /\ no_challenge (C := C) fuel t) \/
    exists pf L', proof_new M fuel P prover L = Done (Ok (pf, L')) /\ LOK L' /\ well_formed_proof k pf L /\
      (fuel <= 256 -> forall kc, (forall ky, build_ky [fzero] (combine (l_inputs s) (l_values s)) = Some ky -> ky_com ky kc) ->
         exists D forks, proof_verify M' pf L P verifier (tl (l_values s)) kc = Done (Ok (true, L', D, forks)) /\ deferred_verify D k = Some true /\
           match kc with Some K => strictly pf L K (d_ky_opening D) (d_gx_old_opening D) | None => True end).
  Proof.
    intros HM HM' (cs & cis & sxo & Hroot & Hinv & Hlen & Hgo & Esxo & Hso).
    destruct (laid_out_ok _ _ _ HT) as (OK & _ & _). pose proof n_pos as N2. pose proof k_pos as K3. pose proof gs_len as GL.
    assert (Hcs : cs <> []). { intros ->. inversion Hroot as [E|]. rewrite <- E in Hlen. cbn [length] in Hlen. lia. }
    assert (Lcs : length cs = k) by (rewrite <- Hlen; symmetry; exact (Forall2_len _ _ _ Hroot)).
    unfold proof_new. cbv zeta. rewrite (loud_synthesize _ _ HT). step. cbn [pa_n pa_q pa_a pa_b pa_c pa_inputs].
    rewrite (proj2 (Nat.ltb_lt _ _) Hn), (proj2 (Nat.ltb_lt _ _) HQ). step.
    destruct (sx_fact (y_new L)) as (sxo' & Eo & Eo' & Lo & Vo). assert (sxo' = sxo) as -> by congruence. rewrite Eo. step.
    rewrite (rooted_eq _ _ Hroot). step. rewrite (invert_all_eq SL _ _ Hinv). step.
    destruct (ky_ok SL s OK) as (ky & Eky & Lky & Vky). rewrite Eky. step.
    destruct (commit_l M ky HM) as (kcom & Ekc & Hkc); [lia|]. rewrite Ekc. step.
    fold (rx_vec (resize (l_a s) n) (resize (l_b s) n) (resize (l_c s) n)). set (rx := rx_vec (resize (l_a s) n) (resize (l_b s) n) (resize (l_c s) n)).
    assert (Lrx : length rx = 3 * n + 1) by (apply rx_length; apply resize_len). rewrite Lrx, Nat.eqb_refl. step.
    destruct (commit_rep CL M P gs rx true HM HG gens32) as (rcom & Erc & Hrc); [lia|]. rewrite Erc. step.
    pose proof (live_new (F := Base C)) as T0.
    pose proof (live_point CL _ rcom (live_point CL _ kcom T0)) as T1.
    destruct (live_challenge CL F _ T1) as (y & tr1 & Ey & T2). rewrite Ey. step.
    pose proof (challenge_nz CL _ _ _ Ey) as Yn. destruct (finvert_some SL y Yn) as (yi & Eyi & Hyi). rewrite Eyi. step.
    destruct (prover_polys CL M P prover s t y yi HM HT HF HS ltac:(lia) bound7 Hyi) as (u & w & z0 & rp & Lu & Lw & Lz & Esx & Erp & Lrp & Etx & Ec).
    fold rx in Erp, Etx, Ec. set (sxc := sx_vec0 u w z0) in *. rewrite Esx. step.
    destruct (sx_fact y) as (sxc' & E1 & E1' & Lc & Vc). assert (sxc' = sxc) as -> by congruence. clear E1.
    destruct (commit_l M sxc HM) as (scom & Esc & Hsc); [lia|]. rewrite Esc. step. rewrite Erp. step. rewrite Etx. step.
    set (tx := map (product_coeff rx rp) (seq 0 (7 * n + 1))) in *.
    assert (Ltx : length tx = 7 * n + 1) by (unfold tx; rewrite map_length, seq_length; reflexivity). rewrite Ltx, Nat.eqb_refl. step.
    unfold slice_from, slice_to. rewrite Ltx, (proj2 (Nat.leb_le (4 * n + 1) (7 * n + 1))), (proj2 (Nat.leb_le (4 * n) (7 * n + 1))) by lia. step.
    set (txp := skipn (4 * n + 1) tx). set (txn := firstn (4 * n) tx).
    assert (Ltp : length txp = 3 * n) by (unfold txp; rewrite skipn_length; lia).
    assert (Ltn : length txn = 4 * n) by (unfold txn; rewrite firstn_length; lia).
    destruct (commit_l M txp HM) as (tpcom & Etpc & Htpc); [lia|]. rewrite Etpc. step.
    destruct (commit_l M txn HM) as (tncom & Etnc & Htnc); [lia|]. rewrite Etnc. step.
    replace (length (p_generators P) =? 4 * n) with true by (symmetry; apply Nat.eqb_eq; lia). step.
    pose proof (live_point CL _ tncom (live_point CL _ tpcom (live_point CL _ scom T2))) as T3.
    destruct (live_challenge CL F _ T3) as (x & tr2 & Ex & T4). rewrite Ex. step.
    pose proof (challenge_nz CL _ _ _ Ex) as Xn. destruct (finvert_some SL x Xn) as (xi & Exi & Hxi).
    destruct (sy_fact x xi (length (l_lcs s)) Hxi) as (sy0 & Esy & Lsy0 & Vsy0). rewrite Esy. step.
    rewrite (pow64 SO) by exact n64. set (sy := mul_px sy0 (fpow x n)).
    assert (Lsy : length sy = S (length (l_lcs s))) by (unfold sy; rewrite mul_px_length; exact Lsy0).
    assert (Vsy : forall y', eval_at sy y' = fmul (fpow x n) (s_value n (l_lcs s) x xi y')).
    { intro y'. unfold sy. rewrite (eval_mul_px SL), Vsy0. ring. }
    destruct (commit_l M sy HM) as (ccom & Ecc & Hcc); [lia|]. rewrite Ecc. step.
    pose proof (live_point CL _ ccom T4) as T5.
    destruct (live_challenge CL F _ T5) as (yn & tr3 & Eyn & T6). rewrite Eyn. step.
    destruct (sx_fact yn) as (sxn & En & En' & Ln & Vn). rewrite En. step.
    destruct (commit_l M sxn HM) as (sncom & Esn & Hsn); [lia|]. rewrite Esn. step.
    rewrite !open_l. step.
    assert (Ntx : nth_error tx (4 * n) = Some (product_coeff rx rp (4 * n))).
    { unfold tx. apply map_nth_error. rewrite (nth_error_nth' _ 0) by (rewrite seq_length; lia). rewrite seq_nth by lia. reflexivity. }
    rewrite Ntx. step. rewrite !(pow64 SO) by exact n64.
    assert (Eas : product_coeff rx rp (4 * n) = fmul (eval_at ky y) (fpow y n)).
    { rewrite Ec, (satisfied_constant SO n s y yi Hsat), Vky. ring. }
    rewrite Eas, (feqb_refl SO). step.
    rewrite !(opening_eq CL) by (first [intros _; lia | pose proof gens32; lia]). step.
    rewrite (coeffs_b SL x cs cis Hcs Hinv). step. rewrite <- (rooted_sq SL _ _ Hroot) at 1. rewrite (rooted_sq SL _ _ Hroot). rewrite (feqb_refl SO). step.

    rewrite Pg, Lrx. set (e := 2 ^ k - (3 * n + 1)) in *.
    match goal with |- context [get_challenge F ?a] => set (ta := a) end.
    assert (TA : live ta) by (unfold ta; repeat apply (live_scalar CL); apply (live_point CL); exact T6).
    destruct (live_challenge CL F _ TA) as (zz & tb & Ez & TB). rewrite Ez. step. set (z := get_challenge_scalar zz).
    unfold usize_sub. rewrite Pd, (proj2 (Nat.leb_le (3 * n + 1) (2 ^ k))) by lia. step. fold e.
    rewrite (proj2 (Nat.leb_le (length ky) (length sy))) by lia. step.
    set (px0 := repeat fzero e ++ rx). set (gx := gcoeffs (map fsquare cs) (prod_ cis)) in *.
    assert (He : e = n - 1) by lia.
    assert (Lgx : length gx = 2 ^ k) by (unfold gx; rewrite coeffs_length, map_length, Lcs; reflexivity).
    assert (Lp0 : length px0 = length gs) by (unfold px0; rewrite app_length, repeat_length; lia).
    assert (Vp0 : eval_at px0 x = fmul (eval_at rx x) (fpow x e)).
    { unfold px0. rewrite (eval_app SO), (eval_repeat SO), repeat_length. ring. }
    assert (Hp0 : rep rcom (zsum (map vs px0) gs)).
    { unfold px0. rewrite (zsum_right CL) by lia. replace e with (length gs - length rx) by lia. exact Hrc. }
    destruct (combine_ok CL z gs x [sxo; sxc; txp; txn; sxn; gx] [s_new_commitment L; scom; tpcom; tncom; sncom; g_new L] px0 rcom (fmul (eval_at rx x) (fpow x e)))
      as (Lpx & Hpx & Vpx); [| exact Lp0 | exact Hp0 | symmetry; exact Vp0 |].
    { repeat constructor; rewrite ?GL; try (apply Hso); try (apply Hsc); try (apply Htpc); try (apply Htnc); try (apply Hsn); try lia.
      rewrite Lgx, <- GL, firstn_all. exact Hgo. }
    cbn [map] in Vpx. set (px := fold_left _ _ px0) in *. fold px.
    match goal with |- context [new_proof M fuel tb ?i _ _] => set (instances := i) end.
    assert (HI : Forall (fun ic => length (snd ic) <= 2 ^ k) instances).
    { unfold instances. repeat constructor; cbn [snd]; rewrite ?add_zip_length; lia. }
    rewrite Pk.
    destruct (ipa_complete CL M fuel k (p_generators P) gs tb instances HM ltac:(lia) HG Pg TB HI)
      as [[ER EN]|(ipf & packed & g & tc & EP & TC & (cs' & cis' & Lcs' & Hroot' & Hinv' & Hfold) & HWf & HVf)].
    { left. rewrite ER. split; [reflexivity|exact EN]. }
    right. rewrite EP. step. eexists. eexists. split; [reflexivity|].
    assert (Hr' : rooted packed cs'). { unfold rooted. clear -Hroot'. induction Hroot'; constructor; assumption. }
    assert (Hg' : rep g (zsum (map vs (gcoeffs (map fsquare cs') (prod_ cis'))) gs)).
    { pose proof (fold_rep CL (combine cs' cis') _ _ HG) as HR. rewrite Hfold in HR.
      rewrite (gfold_coeffs CL cs' cis' gs (Forall2_len _ _ _ Hinv') Hinv') in HR by (rewrite Lcs'; exact GL).
      inversion HR; subst. assumption. }
    split.
    { exists cs', cis', sxn. cbn [challenges_sq_packed_new g_new y_new s_new_commitment].
      split; [exact Hr'|]. split; [exact Hinv'|]. split; [rewrite (Forall2_len _ _ _ Hr'); exact Lcs'|].
      split; [exact Hg'|]. split; [exact En'|exact Hsn]. }
    split.
    { split; [|split; [exact HWf|]].
      - cbn [pf_r_commitment pf_s_cur_commitment pf_t_positive_commitment pf_t_negative_commitment pf_c_commitment pf_s_new_commitment].
        repeat constructor; eexists; first [exact Hrc | exact (proj2 Hsc) | exact (proj2 Htpc) | exact (proj2 Htnc) | exact (proj2 Hcc) | exact (proj2 Hsn) | exact (proj2 Hso) | exact Hgo].
      - split; [intro E; rewrite E in Hlen; cbn [length] in Hlen; lia|]. clear -Hroot. unfold rooted in Hroot. induction Hroot; constructor; [congruence|assumption]. }
    intros Hfuel kc Hkcs. specialize (Hkcs _ eq_refl).
    unfold proof_verify. cbv zeta. rewrite (inputmap_synthesize _ _ HV). step.
    destruct HS' as (_ & _ & Ein). rewrite <- Ein.
    destruct (values_head _ _ HT) as (vals & Evals). pose proof (lo_values _ OK) as LV. rewrite Evals in LV |- *. cbn [tl length] in LV |- *.
    unfold usize_sub at 1. rewrite (proj2 (Nat.leb_le 1 (length (l_inputs s)))) by lia. step.
    replace (length vals =? length (l_inputs s) - 1) with true by (symmetry; apply Nat.eqb_eq; lia). step.
    rewrite Evals in Eky. rewrite Eky. step.
    assert (HK : exists K, match kc with Some c => Done c | None => out_opt (commit M' P ky false) end = Done K /\ lcom ky K).
    { destruct kc as [K|]; [exists K; split; [reflexivity|exact Hkcs]|]. destruct (commit_l M' ky HM') as (K & E & H); [lia|]. exists K. rewrite E. split; [reflexivity|exact H]. }
    destruct HK as (K & EK & HK). rewrite EK. step.
    assert (EA : append_point rescue_new K = append_point rescue_new kcom).
    { unfold append_point. rewrite (cl_get_xy _ _ _ _ _ CL _ _ (proj2 HK)), (cl_get_xy _ _ _ _ _ CL _ _ (proj2 Hkc)). reflexivity. }
    cbn [pf_r_commitment pf_s_cur_commitment pf_t_positive_commitment pf_t_negative_commitment pf_c_commitment pf_s_new_commitment
         pf_rx_opening pf_rxy_opening pf_sx_old_opening pf_sx_cur_opening pf_tx_positive_opening pf_tx_negative_opening pf_sx_new_opening pf_inner_product].
    rewrite EA, Ey. step. rewrite Ex. step. rewrite Eyn. step. rewrite open_l. step.
    rewrite (rooted_eq _ _ Hroot). step. rewrite (invert_all_eq SL _ _ Hinv). step. rewrite (coeffs_b SL x cs cis Hcs Hinv). step.
    fold gx. fold ta. rewrite Ez. step. fold z. rewrite Pk.
    match goal with |- context [verify_proof ipf tb ?i k] => set (vinst := i) end.
    assert (HSee : Forall2 (sees CL k gs) instances vinst).
    { apply (five_instances x y (y_new L) yn e z px rx sy ky);
        [lia | exact Hpx | exact Vpx | lia | lia | exact Hrc | reflexivity | exact Hcc | | | | lia | exact HK | reflexivity].
      - rewrite (Vo x xi Hxi), Vsy. reflexivity.
      - rewrite (Vc x xi Hxi), Vsy. reflexivity.
      - rewrite (Vn x xi Hxi), Vsy. reflexivity. }
    destruct (HVf vinst HSee) as [[H256 _]|(forks & EV & HStr)]; [lia|]. rewrite EV. step.
    assert (Hcs' : cs' <> []) by (intros ->; cbn [length] in Lcs'; lia).
    rewrite (rooted_eq _ _ Hr'). step. rewrite (invert_all_eq SL _ _ Hinv'). step.
    rewrite !(coeffs_b SL _ cs' cis' Hcs' Hinv'). step.
    eexists. eexists. split; [reflexivity|].
    match goal with |- deferred_verify ?d k = _ /\ _ => set (D := d) end.
    match goal with |- _ /\ ?X => assert (HSt : X) end.
    { destruct kc as [K'|]; [|exact I]. assert (K' = K) as -> by congruence.
      exists y, x, yn, zz, tr1, tr2, tr3, tb.
      cbn [pf_r_commitment pf_s_cur_commitment pf_t_positive_commitment pf_t_negative_commitment pf_c_commitment pf_s_new_commitment
         pf_rx_opening pf_rxy_opening pf_sx_old_opening pf_sx_cur_opening pf_tx_positive_opening pf_tx_negative_opening pf_sx_new_opening pf_inner_product].
      split; [rewrite EA; exact Ey|]. split; [exact Ex|]. split; [exact Eyn|]. split; [exact Ez|exact HStr]. }
    split; [|exact HSt]. clear HSt.
    destruct (deferred_compute_eq SL k n (resize (l_a s) n) (resize (l_b s) n) (resize (l_c s) n) u w z0 x xi y yi rp D) as (lhs & rhs & ED & Ediff);
      try reflexivity; try assumption; try apply resize_len; try (exact bound7); try lia; try exact n_eq.
    { unfold D. cbn [d_rx_opening]. rewrite He. reflexivity. }
    { unfold D. cbn [d_rxy_opening]. rewrite He. reflexivity. }
    assert (Elr : lhs = rhs).
    { unfold D in Ediff. cbn [d_ky_opening] in Ediff. fold rx in Ediff. rewrite Eas in Ediff.
      transitivity (fadd (fsub lhs rhs) rhs); [ring|]. rewrite Ediff. ring. }
    unfold deferred_verify. rewrite ED. step. unfold D.
    cbn [d_challenges_sq_packed_old d_challenges_sq_packed_new d_x d_y_cur d_y_old d_y_new d_gx_old_opening d_b_x d_b_xy d_b_y_old d_b_y_cur d_b_y_new].
    rewrite (rooted_eq _ _ Hroot). step. rewrite (invert_all_eq SL _ _ Hinv). step. rewrite (coeffs_b SL x cs cis Hcs Hinv). step.
    rewrite (rooted_eq _ _ Hr'). step. rewrite (invert_all_eq SL _ _ Hinv'). step.
    rewrite !(coeffs_b SL _ cs' cis' Hcs' Hinv'). step. fold gx. rewrite Elr, !(feqb_refl SO). reflexivity.
  Qed.
End Prover.
