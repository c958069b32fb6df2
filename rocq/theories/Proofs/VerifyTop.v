(** What [Proof::verify] accepts. *)
From Coq Require Import ZArith List Bool Arith Lia Ring Field.
From Verif Require Import Lib.AbGroup Lib.Abel Model.FieldTrait Model.Circuits Model.Synthesis Model.Dev Model.Curve Model.Threads Model.Util Model.Rescue Model.Params Model.Opening Model.Proofs
  Spec.FieldLaws Spec.CircuitSpec Spec.CurveSpec Spec.CurveLaws Spec.UtilSpec Spec.SystemSpec Spec.ProofSpec Spec.VerifySpec Spec.RecursiveCircuitSpec
  Proofs.FieldGen Proofs.ZtoF Proofs.SumP Proofs.SystemP Proofs.CurveTop Proofs.MultiexpP Proofs.FoldP Proofs.ChallengeP Proofs.ParamsP
  Proofs.UtilTop Proofs.IdentityP Proofs.DeferredP Proofs.OpeningP Proofs.OpeningTop Proofs.ProverLemmas Proofs.ProverP Proofs.ProverTop Proofs.DeferredTop Proofs.ForgeryP Proofs.VerifyP.
Import ListNotations.
Open Scope nat_scope.
Open Scope list_scope.

Section Verify.
  Context {C : Curve} {q vb r vs} (CL : CurveLaws C q vb r vs).
  Notation G := (cl_group _ _ _ _ _ CL).
  Notation rep := (rep CL).
  Notation F := (Scalar C).
  Let BL := cl_base _ _ _ _ _ CL.
  Let SL := cl_scalar _ _ _ _ _ CL.
  Let SO := fl_ops _ _ _ SL.
  Add Field Fs : (ffield SO).
  Notation zsum := (zsum CL).
  Ltac step := cbn [out_bind out_try out_opt out_assert obind].

  Lemma rev_powers (z : F) n : rev (powers z (S n)) = fpow z n :: rev (powers z n).
  Proof. unfold powers. rewrite seq_S, map_app, rev_app_distr. reflexivity. Qed.
  Lemma powers_len (z : F) n : length (rev (powers z n)) = n.
  Proof. unfold powers. rewrite rev_length, map_length, seq_length. reflexivity. Qed.
  Lemma combine_rep (z : F) coms gs : Forall2 rep coms gs -> forall P g, rep P g ->
    rep (combine_commitments z P coms) (gp (zmul (vs (fpow z (length gs))) g) (zsum (map vs (rev (powers z (length gs)))) gs)).
  Proof.
    unfold combine_commitments. induction 1 as [|D h coms gs HD _ IH]; intros P g HP.
    - cbn [fold_left length fpow powers seq map rev MultiexpP.zsum]. rewrite (ol_one _ _ _ SO).
      replace (gp (zmul 1 g) (@g0 G)) with g by abel. exact HP.
    - cbn [fold_left length]. rewrite rev_powers. cbn [map MultiexpP.zsum].
      pose proof (IH _ _ (rep_add CL _ _ _ _ (rep_mul CL P z g HP) HD)) as H.
      match goal with |- rep _ ?x => match type of H with rep _ ?y => replace x with y; [exact H|] end end.
      cbn [fpow]. rewrite (ol_mul _ _ _ SO), (CurveTop.zmul_vs_mod CL), Z.mul_comm, zmul_mul. abel.
  Qed.
  Lemma combine_openings_eq (z : F) vals : forall o, combine_openings (C := C) z o vals = dot (rev (powers z (S (length vals)))) (o :: vals).
  Proof.
    intro o. rewrite rev_powers, (IdentityP.dot_cons SO). revert o. unfold combine_openings. induction vals as [|v vals IH]; intro o.
    - cbn [fold_left length powers seq map rev fpow]. unfold dot. cbn. ring.
    - cbn [fold_left length]. rewrite IH, rev_powers, (IdentityP.dot_cons SO). cbn [fpow]. ring.
  Qed.

  Lemma swap (a b c : F) : fadd a (fmul b c) = fadd a (fmul c b). Proof. ring. Qed.

  (** *** The commitment c_zero opens to any value *)
  Definition zero_round : InnerProductRound C := mkRound [c_zero] [c_zero] [fzero] [fzero].
  Lemma zsum_columns (sel : InnerProductRound C -> list C) (ss : list F) Ds gD : sel zero_round = [c_zero] ->
    forall k, Forall2 (fun round D => nth_error (sel round) 0 = Some D) (repeat zero_round k) Ds -> Forall2 rep Ds gD -> zsum (map vs ss) gD = g0.
  Proof.
    intros Hs k H HD. assert (HZ : Forall (fun g => g = g0) gD).
    { remember (repeat zero_round k) as rs eqn:E. revert k E gD HD. induction H as [|rd D rs Ds H _ IH]; intros k E gD HD; inversion HD as [|? g ? gs' Hg HD']; subst; [constructor|].
      destruct k as [|k]; [discriminate E|]. cbn [repeat] in E. injection E as -> E. constructor; [|exact (IH k E _ HD')].
      rewrite Hs in H. cbn [nth_error] in H. injection H as <-. exact (rep_fun CL _ _ _ Hg (rep0 CL)). }
    clear - HZ. revert ss. induction HZ as [|g gD -> _ IH]; intros [|s ss]; try reflexivity. cbn [map MultiexpP.zsum]. rewrite IH, zmul_g0. apply gp_0_l.
  Qed.
  Lemma dot_columns (sel : InnerProductRound C -> list F) (ss : list F) ls : sel zero_round = [fzero] ->
    forall k, Forall2 (fun round l => nth_error (sel round) 0 = Some l) (repeat zero_round k) ls -> length ss = k -> dot ss ls = fzero.
  Proof.
    intros Hs k H. revert ss ls H. induction k as [|k IH]; intros ss ls H HL; cbn [repeat] in H; inversion H as [|? l ? ls' H1 H2]; subst.
    - destruct ss; [reflexivity|discriminate HL].
    - destruct ss as [|s0 ss]; [discriminate HL|]. rewrite Hs in H1. cbn [nth_error] in H1. injection H1 as <-. rewrite (IdentityP.dot_cons SO), (IH ss ls' H2) by (cbn [length] in HL; congruence). ring.
  Qed.
  Theorem identity_opens k t (x v : F) : 1 <= k -> live t ->
    (exists tr, reached tr /\ no_challenge (C := C) 256 tr) \/
    exists packed b, length packed = k /\ powers_fold_to packed x b /\ (exists cs, rooted packed cs) /\
      forall a g gg, rep g gg -> v = fmul a b ->
        exists forks t', verify_proof (mkMulti (repeat zero_round k) [a] g) t [mkOpening c_zero v x false] k = Done (true, packed, g, forks, t').
  Proof.
    intros Hk Ht.
    set (claims := [mkOpening c_zero v x false] : list (PolynomialOpening C)).
    set (s0 := mkV t (map po_commitment claims) (map po_opening claims) [] [] [] [] : VState C).
    assert (V0 : valid (c_zero : C)) by (eexists; exact (rep0 CL)).
    assert (HW : Forall (fun round : InnerProductRound C => 1 <= length (ip_L round) /\ 1 <= length (ip_R round) /\ 1 <= length (ip_l round) /\
                         1 <= length (ip_r round) /\ Forall valid (ip_L round) /\ Forall valid (ip_R round)) (repeat zero_round k)).
    { apply Forall_forall. intros rd H. apply repeat_spec in H. subst rd. cbn [ip_L ip_R ip_l ip_r zero_round length]. repeat (split; [lia|]). split; repeat constructor; exact V0. }
    destruct (rounds_spec CL 1 (repeat zero_round k) HW s0 Ht eq_refl eq_refl)
      as [[E H]|(s' & packed & forks & cs & cis & E & R & Ht' & Hroot & Hinv & Q1 & Q2 & Q3 & Q4 & L1 & L2 & HJ)]; [left; exact H|right].
    cbn [s0 v_challenges v_challenges_inv v_packed v_forks app] in Q1, Q2, Q3, Q4.
    assert (Hp : length packed = k).
    { rewrite <- (repeat_length zero_round k). clear - R. induction R; cbn [length]; [reflexivity|f_equal; assumption]. }
    pose proof (Forall2_len _ _ _ Hroot) as Lc. pose proof (Forall2_len _ _ _ Hinv) as Li.
    assert (Hne : cs <> []) by (intros ->; cbn [length] in Lc; lia).
    destruct (b_eq SL packed cs cis x Hroot Hinv Hne) as (b & _ & Hb). exists packed, b. split; [exact Hp|]. split; [apply Hb; reflexivity|]. split; [exists cs; exact Hroot|].
    intros a g gg Hg Ev.
    destruct (HJ 0 c_zero v g0 eq_refl eq_refl (rep0 CL)) as (Ls & Rs & ls & rs & gL & gR & P' & C1 & C2 & C3 & C4 & C5 & C6 & EP & HR & EV).
    rewrite (zsum_columns _ _ _ _ eq_refl k C1 C5), (zsum_columns _ _ _ _ eq_refl k C2 C6) in HR.
    rewrite (dot_columns _ _ _ eq_refl k C3), (dot_columns _ _ _ eq_refl k C4) in EV by (unfold squares; rewrite map_length; lia).
    unfold verify_proof. cbn [mo_rounds mo_a mo_g]. rewrite repeat_length, Nat.eqb_refl. step. change (length claims) with 1. fold claims s0. rewrite E. step.
    destruct (v_p s') as [|P1 [|? ?]] eqn:EVp; try discriminate L1. destruct (v_v s') as [|v1 [|? ?]] eqn:EVv; try discriminate L2.
    cbn [nth_error] in EP, EV. injection EP as ->. injection EV as ->.
    assert (HI : represents P' infinity). { rewrite <- (cl_infinity _ _ _ _ _ CL). replace (@g0 G) with (gp (@g0 G) (gp (@g0 G) (@g0 G))) by abel. exact HR. }
    assert (Vp : Forall valid [P']) by (repeat constructor; exists infinity; exact HI).
    destruct (final_spec CL s' g gg cs cis packed Q1 Q2 Hne Hroot Hinv Hg claims [P'] [fadd v (fadd fzero fzero)] [a] eq_refl eq_refl (le_n 1) Vp) as (ok & Eok & Hok).
    rewrite Eok. step. assert (ok = true) as ->.
    { apply Hok. intros [|[|j]] i P1 vj aj N1 N2 N3 N4; try discriminate N1. cbn [nth_error claims] in N1, N2, N3, N4.
      injection N1 as <-. injection N2 as <-. injection N3 as <-. injection N4 as <-. split; [left; exact HI|]. exists b. cbn [po_point]. split; [apply Hb; reflexivity|].
      rewrite Ev. ring. }
    exists (v_forks s'), (v_transcript s'). rewrite Q3. reflexivity.
  Qed.

  Variable (P : Params C) (gs : list G).
  Hypothesis (HP : good_params P) (HG : Forall2 rep (p_generators P) gs).
  Theorem proof_verify_spec M circuit t (inputs : list F) (pf : Proof_ C) (L : Leftovers C) (K : option C) : machine_ok M ->
    laid_out false circuit t -> length inputs = length (l_inputs t) - 1 -> length (l_lcs t) < p_d P ->
    well_formed_proof (p_k P) pf L -> match K with Some K => valid K | None => True end ->
    exists k, (forall i, coeff k i = input_at (l_inputs t) (fone :: inputs) i) /\
    ((proof_verify M pf L P circuit inputs K = Panicked /\ exists tr, reached tr /\ no_challenge (C := C) 256 tr) \/
     exists K' b L' D forks, proof_verify M pf L P circuit inputs K = Done (Ok (b, L', D, forks)) /\
       match K with Some K => K' = K | None => commitment_to (p_generators P) false k K' end /\
       verified K' k pf L b L' D forks /\
       (b = true -> strictly pf L K' (d_ky_opening D) (d_gx_old_opening D) -> verified_exactly K' pf L L' D forks)).
  Proof.
    intros HM HT Hin HQ (HV & HW & Hne & Hroots) VK.
    pose proof HP as (Hk30 & Pd & Pn & Pg & HVg). pose proof (g_len CL P HP gs HG) as GL.
    destruct (laid_out_ok _ _ _ HT) as (OK & _ & _). pose proof (inputs_head _ _ _ HT) as LI.
    destruct (build_ky_ok (length (l_lcs t)) (l_inputs t) (fone :: inputs) [fzero]) as (k & Eky & Lky & Cky);
      [cbn [length]; lia | apply lo_sorted, OK | apply lo_range, OK | cbn [length]; lia |]. cbn [length] in Lky.
    assert (HK : forall i, coeff k i = input_at (l_inputs t) (fone :: inputs) i).
    { intro i. rewrite Cky. destruct i as [|i]; [|reflexivity]. cbn [length Nat.ltb Nat.leb]. symmetry. unfold coeff. cbn [nth].
      pose proof (lo_range _ OK) as LR. clear - LR. revert LR. generalize (fone :: inputs). induction (l_inputs t) as [|a l IH]; intros [|v vl] LR; try reflexivity.
      inversion LR as [|? ? H1 H2]; subst. cbn [input_at]. destruct (Nat.eqb_spec a 0) as [->|]; [lia|]. apply IH, H2. }
    exists k. split; [exact HK|].
    destruct (cases_rooted (challenges_sq_packed_new L)) as [(cs & Hroot)|(_ & pk & Hpk & Epk)]; [|exfalso; exact (proj1 (Forall_forall _ _) Hroots pk Hpk Epk)].
    destruct (rooted_inv SL _ _ Hroot) as (cis & Hinv).
    assert (Hcs : cs <> []). { intros ->. inversion Hroot. congruence. }
    unfold proof_verify. cbv zeta. rewrite (inputmap_synthesize _ _ HT). step.
    assert (Eus : usize_sub (length (l_inputs t)) 1 = Some (length (l_inputs t) - 1)) by (unfold usize_sub; rewrite (proj2 (Nat.leb_le 1 (length (l_inputs t)))) by lia; reflexivity).
    rewrite Eus. step.
    rewrite (proj2 (Nat.eqb_eq _ _) Hin). step. rewrite Eky. step.
    assert (EK : exists K', match K with Some c => Done c | None => out_opt (commit M P k false) end = Done K' /\
                   match K with Some K => K' = K | None => commitment_to (p_generators P) false k K' end /\ valid K').
    { destruct K as [K|]; [exists K; split; [reflexivity|]; split; [reflexivity|exact VK]|].
      destruct (commit_l CL P (p_k P) gs eq_refl Pd Pn Pg HG Hk30 M k HM) as (K & E & H); [lia|]. rewrite E. exists K. split; [reflexivity|].
      split; [apply (lcom_iff CL P HP gs HG), H|]. eexists. exact (proj2 H). }
    destruct EK as (K' & -> & HK' & VK'). step.
    rewrite !append_point_eq, <- !appended_app. cbn [app].
    pose proof (live_new (F := Base C)) as T0.
    destruct (live_after CL (appended rescue_new [Point K'; Point (pf_r_commitment pf)]) (live_appended CL _ _ T0)) as (y & t1 & Ey & Sy & T1). rewrite Ey. step.
    destruct (live_after CL (appended t1 [Point (pf_s_cur_commitment pf); Point (pf_t_positive_commitment pf); Point (pf_t_negative_commitment pf)]) (live_appended CL _ _ T1)) as (x & t2 & Ex & Sx & T2).
    rewrite !append_point_eq, <- !appended_app. cbn [app]. rewrite Ex. step.
    destruct (live_after CL (appended t2 [Point (pf_c_commitment pf)]) (live_appended CL _ _ T2)) as (yn & t3 & Eyn & Syn & T3). rewrite !append_point_eq. rewrite Eyn. step.
    rewrite (open_l CL P (p_k P) eq_refl Pd Pn Pg Hk30). step.
    rewrite (rooted_eq _ _ Hroot). step. rewrite (invert_all_eq SL _ _ Hinv). step.
    destruct (b_eq SL _ cs cis x Hroot Hinv Hcs) as (gx & Egx & Hgx). rewrite Egx. step.
    rewrite !append_scalar_eq, !append_point_eq, <- !appended_app. cbn [app].
    match goal with |- context [get_challenge F ?a] => destruct (live_after CL a (live_appended CL _ _ T3)) as (z & t4 & Ez & Sz & T4) end. rewrite Ez. step.
    match goal with |- context [verify_proof (pf_inner_product pf) t4 ?c _] => set (claims := c) end.
    set (zu := @get_challenge_scalar F F z) in *.
    destruct (valid_reps CL _ HV) as (gv & HGv).
    inversion HGv as [|? g1 ? l1 G1 X1]; subst. inversion X1 as [|? g2 ? l2 G2 X2]; subst. inversion X2 as [|? g3 ? l3 G3 X3]; subst. inversion X3 as [|? g4 ? l4 G4 X4]; subst.
    inversion X4 as [|? g5 ? l5 G5 X5]; subst. inversion X5 as [|? g6 ? l6 G6 X6]; subst. inversion X6 as [|? g7 ? l7 G7 X7]; subst. inversion X7 as [|? g8 ? l8 G8 X8]; subst.
    destruct (valid_ex CL _ VK') as (gK & HgK).
    assert (HD : rep (combine_commitments zu (pf_r_commitment pf) [s_new_commitment L; pf_s_cur_commitment pf; pf_t_positive_commitment pf; pf_t_negative_commitment pf; pf_s_new_commitment pf; g_new L])
                  (zsum (map vs (falling zu)) [g1; g7; g2; g3; g4; g6; g8])).
    { unfold falling. rewrite rev_powers. cbn [map MultiexpP.zsum]. apply (combine_rep zu _ [g7; g2; g3; g4; g6; g8]); [repeat (constructor; [assumption|]); constructor|exact G1]. }
    assert (HE : rep (c_add (pf_c_commitment pf) (c_mul K' zu)) (zsum (map vs [fone; zu]) [g5; gK])).
    { cbn [map MultiexpP.zsum]. rewrite gp_0_r. apply rep_add; [|apply rep_mul, HgK]. rewrite (ol_one _ _ _ SO). replace (zmul 1 g5) with g5 by abel. exact G5. }
    assert (HVc : Forall (fun i => valid (po_commitment i)) claims).
    { unfold claims. repeat (constructor; [cbn [po_commitment]; eexists; eassumption|]). constructor. }
    destruct (verify_spec CL (pf_inner_product pf) t4 claims (p_k P) HW T4 HVc) as [[E H]|(b & packed & forks & t' & cs' & cis' & E & Hroot' & Hinv' & Lcs' & HR & HB & HStr)].
    { left. rewrite E. step. split; [reflexivity|exact H]. }
    right. rewrite E. step. rewrite (rooted_eq _ _ Hroot'). step. rewrite (invert_all_eq SL _ _ Hinv'). step.
    assert (Hcs' : cs' <> []). { intros ->. destruct HW as (H1 & _). cbn [length] in Lcs'. lia. }
    pose proof (b_eq SL packed cs' cis') as BE.
    destruct (BE x Hroot' Hinv' Hcs') as (b1 & -> & B1). step. destruct (BE (fmul x y) Hroot' Hinv' Hcs') as (b2 & -> & B2). step.
    destruct (BE (y_new L) Hroot' Hinv' Hcs') as (b3 & -> & B3). step. destruct (BE y Hroot' Hinv' Hcs') as (b4 & -> & B4). step.
    destruct (BE yn Hroot' Hinv' Hcs') as (b5 & -> & B5). step.
    exists K', b. eexists. eexists. exists forks. split; [reflexivity|]. split; [exact HK'|].
    match goal with |- ?V /\ (_ -> ?S -> ?E) => assert (HE1 : b = true -> S -> forall j claim a, nth_error claims j = Some claim -> nth_error (mo_a (pf_inner_product pf)) j = Some a ->
         claim_holds (mo_g (pf_inner_product pf)) (mo_rounds (pf_inner_product pf)) packed j claim a) end.
    { intros Hb (y' & x' & yn' & z' & t1' & t2' & t3' & t4' & S1 & S2 & S3 & S4 & S5). cbn [d_ky_opening d_gx_old_opening fold_left] in S4, S5.
      rewrite !append_point_eq, <- !appended_app in S1. cbn [app] in S1. assert (y' = y) as -> by congruence. assert (t1' = t1) as -> by congruence.
      rewrite !append_point_eq, <- !appended_app in S2. cbn [app] in S2. assert (x' = x) as -> by congruence. assert (t2' = t2) as -> by congruence.
      rewrite !append_point_eq in S3. assert (yn' = yn) as -> by congruence. assert (t3' = t3) as -> by congruence.
      rewrite !append_scalar_eq, !append_point_eq, <- !appended_app in S4. cbn [app] in S4. assert (z' = z) as -> by congruence. assert (t4' = t4) as -> by congruence.
      exact (HStr Hb S5). }
    split; [|intros Hb HSt; specialize (HE1 Hb HSt)];
    (exists gx, y, x, yn, z, t4, t', claims; cbv zeta; split; [apply Hgx; reflexivity|]);
    (split; [exists t1, t2, t3; split; [exact Sy|]; split; [exact Sx|]; split; [exact Syn|exact Sz]|]);
    (split; [exists (combine_commitments zu (pf_r_commitment pf) [s_new_commitment L; pf_s_cur_commitment pf; pf_t_positive_commitment pf; pf_t_negative_commitment pf; pf_s_new_commitment pf; g_new L]),
        (c_add (pf_c_commitment pf) (c_mul K' zu)); eexists; eexists; split; [exact HD|]; split; [exact HE|];
      (split; [apply (combination_iff CL) with (gs := [g1; g7; g2; g3; g4; g6; g8]); [repeat (constructor; [assumption|]); constructor|reflexivity|reflexivity]|]);
      (split; [apply (combination_iff CL) with (gs := [g5; gK]); [repeat (constructor; [assumption|]); constructor|reflexivity|reflexivity]|]);
      split; [reflexivity|]; split; [|reflexivity]; unfold claims; cbn [map po_opening d_ky_opening]; rewrite combine_openings_eq; rewrite (swap _ (eval_at k y) zu); reflexivity|]);
    cbn [challenges_sq_packed_new s_new_commitment y_new g_new].
    - split; [exact HR|]. split; [exact HB|]. do 16 (split; [reflexivity|]). cbn [d_b_x d_b_xy d_b_y_old d_b_y_cur d_b_y_new].
      split; [apply B1; reflexivity|]. split; [apply B2; reflexivity|]. split; [apply B3; reflexivity|]. split; [apply B4; reflexivity|apply B5; reflexivity].
    - split; [exact HR|]. split; [exact HE1|]. do 15 (split; [reflexivity|]). cbn [d_b_x d_b_xy d_b_y_old d_b_y_cur d_b_y_new].
      split; [apply B1; reflexivity|]. split; [apply B2; reflexivity|]. split; [apply B3; reflexivity|]. split; [apply B4; reflexivity|apply B5; reflexivity].
  Qed.
  (** the honest prover's proofs satisfy every claim with equality *)
  Theorem honest_exact M M' fuel prover verifier s (L : Leftovers C) pf L' K : machine_ok M -> machine_ok M' -> can_prove P prover verifier s -> honest_leftovers P verifier L ->
    proof_new M fuel P prover L = Done (Ok (pf, L')) -> fuel <= 256 -> commits_to_inputs P s K ->
    honest_leftovers P verifier L' /\ well_formed_proof (p_k P) pf L /\
    exists D forks, proof_verify M' pf L P verifier (tl (l_values s)) (Some K) = Done (Ok (true, L', D, forks)) /\ deferred_verify D (p_k P) = Some true /\
      verified_exactly K pf L L' D forks.
  Proof.
    intros HM HM' HC HL E Hf HK.
    destruct (complete_strict CL M M' fuel P prover verifier s L HM HM' HP HC HL) as [[X _]|(pf' & L2 & E' & HL' & HW & HV)]; [congruence|].
    assert (pf' = pf) as -> by congruence. assert (L2 = L') as -> by congruence.
    split; [exact HL'|]. split; [exact HW|]. destruct (HV Hf (Some K) HK) as (D & forks & E1 & E2 & HSt). exists D, forks. split; [exact E1|]. split; [exact E2|].
    destruct HC as (HT & _ & (t & Ht & H1 & H2 & H3) & _ & _ & HQ).
    assert (VK : valid K). { destruct HK as (v & W1 & _). apply (lcom_iff CL P HP gs HG) in W1. eexists. exact (proj2 W1). }
    destruct (laid_out_ok _ _ _ HT) as (OK & _ & _).
    assert (Hin : length (tl (l_values s)) = length (l_inputs t) - 1).
    { rewrite <- H3, <- (lo_values _ OK). destruct (l_values s); cbn [tl length]; lia. }
    destruct (proof_verify_spec M' verifier t (tl (l_values s)) pf L (Some K) HM' Ht Hin ltac:(rewrite <- H2; exact HQ) HW VK) as (k & _ & [[X _]|(K' & b & L2 & D2 & forks2 & E3 & -> & _ & HX)]); [congruence|].
    assert (b = true) as -> by congruence. assert (L2 = L') as -> by congruence. assert (D2 = D) as -> by congruence. assert (forks2 = forks) as -> by congruence.
    exact (HX eq_refl HSt).
  Qed.
End Verify.
