(** The check of a proof in the recursive verification circuit: it can be satisfied
    whenever the conversation of the verifier has the claimed outcome, and always
    in the base case. *)
From Coq Require Import String List Bool Arith ZArith Lia Ring Field.
From Verif Require Import Lib.AbGroup Model.FieldTrait Model.Circuits Model.Num Model.Boolean Model.Curve Model.Ecc Model.Threads Model.Params Model.Util
  Model.Rescue Model.RescueGadget Model.Opening Model.Proofs Model.Recursion
  Spec.FieldLaws Spec.CircuitSpec Spec.NumSpec Spec.BoolSpec Spec.UtilSpec Spec.CurveSpec Spec.CheatSpec Spec.CurveLaws Spec.EccSpec Spec.ProofSpec Spec.VerifySpec Spec.RecursionSpec Spec.RecursiveCircuitSpec
  Proofs.FieldGen Proofs.ZtoF Proofs.CircuitP Proofs.LcP Proofs.NumP Proofs.BoolP Proofs.UnpackP Proofs.ChallengeP Proofs.CurveTop Proofs.EccP Proofs.EccAddP Proofs.EccMulP
  Proofs.RescueGadgetP Proofs.RecursionP Proofs.ModeP Proofs.RecursionDeferredP Proofs.TranscriptGadgetP Proofs.EncodeP Proofs.RecursionGlue Proofs.VerifyP Proofs.SliceP Proofs.VerifierGadgetP
  Proofs.HonP Proofs.VerifierRoundsP.
Import ListNotations.
Open Scope nat_scope. Open Scope list_scope.

Section Verifier.
  Context {C : Curve} {q vb r vs} (CL : CurveLaws C q vb r vs) (one : Var).
  Notation F := (Base C).
  Let FL : FieldLaws F q vb := cl_base _ _ _ _ _ CL.
  Let OL : OpsLaws F q vb := fl_ops _ _ _ FL.
  Let SL : FieldLaws (Scalar C) r vs := cl_scalar _ _ _ _ _ CL.
  Let SO : OpsLaws (Scalar C) r vs := fl_ops _ _ _ SL.
  Variable w : assignment F.
  Hypothesis w_one : w one = fone.
  Hypothesis HB1 : f_BETA = BETA_BASE C.
  Hypothesis HB2 : f_BETA = BETA_SCALAR C.
  Notation G := (cl_group _ _ _ _ _ CL).
  Notation pt := (cl_point _ _ _ _ _ CL).
  Notation gen := (cl_gen _ _ _ _ _ CL).
  Notation rep := (CurveTop.rep CL).
  Notation zs := (EccMulP.zs CL).
  Notation PH := (PH CL w).
  Notation BH := (Forall2 (bit_has w)).
  Notation T := (TR w true).
  Notation CH := (CH (C := C) (vs := vs) w).
  Notation PV := (PV CL w).
  Notation mrep := (mrep CL).
  Notation grounds := (grounds CL).
  Implicit Types (g h : G).
  Variable self : VerificationCircuit C.
  Variables (D : Deferred (Scalar C)) (OD : Deferred F).
  Notation k := (p_k (vc_params self)).
  Notation virt := (virt self D OD).
  Variable forks : list nat.
  Hypothesis Hforks : vc_forkvalues self = Some forks.

  Context {md : bool}.
  Notation hon := (hon w md).
  Lemma V_inner bc b0 T0 t t' claims gvs bl gn mss packeds gmss us (R : nat -> G * G -> Scalar C -> Scalar C -> Prop) :
    bit_has w bc b0 -> T T0 t -> Forall2 PV claims gvs -> length gvs = 5 ->
    said 5 t (mo_rounds (pf_inner_product (op_proof virt))) mss packeds forks t' -> length (mo_rounds (pf_inner_product (op_proof virt))) = k ->
    Forall2 (Forall2 mrep) mss gmss -> Forall2 scaled packeds us ->
    rep (mo_g (pf_inner_product (op_proof virt))) gn ->
    (forall j gv, nth_error (grounds us gmss gvs) j = Some gv -> exists bits bs bj a, nth_error bl j = Some bits /\ BH bits bs /\ (bits_val bs mod r)%Z = vs bj /\ R j gv bj a /\
       nth_error (mo_a (pf_inner_product (op_proof virt))) j = Some a /\ (md = true -> b0 = false -> fst gv = zs a gn /\ snd gv = zs (fmul bj a) gen)) ->
    hon (verify_inner_product one self bc T0 claims bl) (fun '(Gn, packed) => PH Gn gn /\ Forall2 CH packed packeds /\
      (b0 = false -> forall j gv, nth_error (grounds us gmss gvs) j = Some gv -> exists bj a, R j gv bj a /\ fst gv = zs a gn /\ snd gv = zs (fmul bj a) gen)).
  Proof.
    intros Hb HT HP HL HS HK HM HU Hg HE. unfold verify_inner_product. rewrite <- HK.
    eapply hon_bindc.
    { eapply (H_rounds CL one w w_one HB1 HB2 self D OD forks Hforks) with (i := 0) (packed := []); try eassumption; [reflexivity|reflexivity|]. cbn [Nat.add]. rewrite HK. apply le_n. }
    intros [[pvs T1] packed] (HPV & HT1 & zl & HZ & ->). cbn [app].
    eapply hon_bindc; [eapply (H_witness_of CL one w w_one self D OD _ _ gn); [cbn; apply (rep0 CL)|exact Hg]|]. cbv beta. intros Gn HGn.
    apply (V_gen CL w). intros Pg HPg.
    eapply hon_bind.
    { eapply (V_finals CL one w w_one self D OD bc b0 Gn gn Pg bl R Hb HGn HPg pvs _ HPV); [|exact HE].
      clear - HL HM HS. revert us gvs HL gmss HM. induction HS as [|t round ms n c t1 rounds mss packeds fs t' HS Hn HC _ IH]; intros us gvs HL gmss HM; destruct us as [|[u ui] us]; inversion HM; subst; cbn [VerifierRoundsP.grounds]; try exact HL.
      apply IH; [|assumption]. apply ground_length; [exact HL|]. erewrite <- UnpackP.Forall2_length by eassumption. apply HS. }
    cbv beta. intros [] HF. apply hon_ret. split; [assumption|]. split; assumption.
  Qed.

  Lemma H_slices (o : nat -> nat) n bits bs : BH bits bs -> forall is, (forall i, In i is -> o i + n <= length bs) ->
    complete w (mapM (fun i => bits_at bits (o i) n) is) (fun ls => Forall2 (fun i l => BH l (firstn n (skipn (o i) bs))) is ls).
  Proof.
    intros HB is. induction is as [|i is IH]; intro HI; cbn [mapM]; [apply complete_ret; constructor|].
    eapply (H_bits_at w bits bs); [exact HB|apply HI; left; reflexivity|]. intros l Hl.
    eapply complete_bind; [apply IH; intros j Hj; apply HI; right; exact Hj|]. cbv beta. intros ls Hls. apply complete_ret. constructor; assumption.
  Qed.
  Lemma at_exact bs o n (x : Scalar C) : n <= 128 -> at_bits r bs o n (vs x) -> bits_val (firstn n (skipn o bs)) = vs x.
  Proof.
    intros Hn [Hl E]. rewrite <- E. symmetry. apply Z.mod_small. pose proof (bits_val_range (firstn n (skipn o bs))) as [H1 H2].
    split; [exact H1|]. eapply Z.lt_le_trans; [exact H2|]. rewrite firstn_length, skipn_length.
    eapply Z.le_trans; [apply (Z.pow_le_mono_r 2 _ 254); lia|]. apply Z.lt_le_incl, (fl_size _ _ _ SL).
  Qed.

  Definition chain (z : Scalar C) gs g : G := fold_left (fun a h => gp (zs z a) h) gs g.
  (** the claims, in the group *)
  Definition gclaims (z : Scalar C) (pf : Proof_ C) (ky gx : Scalar C) gK gr gso gsc gtp gtn gsn ggo gc : list (G * G) :=
    let v (x : Scalar C) := zs x gen in
    [(chain z [gso; gsc; gtp; gtn; gsn; ggo] gr,
      chain z [v (pf_sx_old_opening pf); v (pf_sx_cur_opening pf); v (pf_tx_positive_opening pf); v (pf_tx_negative_opening pf); v (pf_sx_new_opening pf); v gx] (v (pf_rx_opening pf)));
     (gr, v (pf_rxy_opening pf)); (gc, v (pf_sx_old_opening pf)); (chain z [gc] gK, chain z [v (pf_sx_cur_opening pf)] (v ky)); (gc, v (pf_sx_new_opening pf))].

  Definition bits_point (bs : list bool) (o : nat) g : Prop :=
    bits_val (firstn 256 (skipn o bs)) = vb (abscissa (pt g)) /\ bits_val (firstn 256 (skipn (o + 256) bs)) = vb (ordinate (pt g)).
  (** what the circuit checks, outside of the base case *)
  Record checked (pc : Proof_ C) (obs nbs : list bool) gK gr gso gsv gsc gtp gtn gsn ggo gc gn (y x yn z : Scalar C) packeds gmss us : Prop := mkChecked {
    ch_so : bits_point obs 0 gso; ch_go : bits_point obs (256 * 2 + 128) ggo;
    ch_sn : bits_point nbs 0 gsn; ch_yn : bits_val (firstn 128 (skipn 512 nbs)) = vs yn; ch_gn : bits_point nbs (256 * 2 + 128) gn;
    ch_c : forall i c, nth_error packeds i = Some c -> bits_val (firstn 128 (skipn (256 * 4 + 128 + 128 * i) nbs)) = vs c;
    ch_dx : d_x D = x; ch_dy : d_y_cur D = y; ch_dyn : d_y_new D = yn; ch_dn : d_challenges_sq_packed_new D = packeds;
    ch_f : forall j gv a bj, nth_error (grounds us gmss (gclaims (get_challenge_scalar z) pc (d_ky_opening D) (d_gx_old_opening D) gK gr gsv gsc gtp gtn gsn ggo gc)) j = Some gv ->
       nth_error (mo_a (pf_inner_product pc)) j = Some a -> nth_error [d_b_x D; d_b_xy D; d_b_y_old D; d_b_y_cur D; d_b_y_new D] j = Some bj ->
       fst gv = zs a gn /\ snd gv = zs (fmul bj a) gen }.
  Lemma nth_ext_error {A} : forall (l l' : list A), length l = length l' -> (forall i x, nth_error l' i = Some x -> nth_error l i = Some x) -> l = l'.
  Proof.
    induction l as [|x l IH]; intros [|y l'] HL H; try discriminate HL; [reflexivity|]. pose proof (H 0 y eq_refl) as E. cbn in E. f_equal; [congruence|].
    apply IH; [cbn in HL; congruence|]. intros i z E'. exact (H (S i) z E').
  Qed.

  Lemma V_verify_proof_with pchain bc b0 Kc K gK ol ds nl obs dbs nbs gr gso gsv gsc gtp gtn gsn ggo gc gn y x yn z t t' mss packeds gmss us :
    let pf := op_proof virt in let pc := claimed D pf in
    bit_has w bc b0 -> PH Kc gK -> rep K gK ->
    rep (pf_r_commitment pf) gr -> rep (s_new_commitment (op_oldproof1 virt)) gso -> rep (pf_s_cur_commitment pf) gsc ->
    rep (pf_t_positive_commitment pf) gtp -> rep (pf_t_negative_commitment pf) gtn -> rep (pf_s_new_commitment pf) gsn ->
    rep (g_new (op_oldproof1 virt)) ggo -> rep (pf_c_commitment pf) gc -> rep (mo_g (pf_inner_product pf)) gn ->
    BH ol obs -> BH ds dbs -> BH nl nbs -> length obs = 256 * 4 + 128 * (k + 1) -> length nbs = 256 * 4 + 128 * (k + 1) ->
    deferred_at r vs k D dbs ->
    conversation K pc (d_ky_opening D) (d_gx_old_opening D) y x yn z t ->
    said 5 t (mo_rounds (pf_inner_product pf)) mss packeds forks t' -> length (mo_rounds (pf_inner_product pf)) = k ->
    length (d_challenges_sq_packed_new D) = k -> 5 <= length (mo_a (pf_inner_product pf)) ->
    Forall2 (Forall2 mrep) mss gmss -> Forall2 scaled packeds us ->
    (forall zc Pr Ps, CH zc z -> PH Pr gr -> Forall2 PH Ps [gso; gsc; gtp; gtn; gsn; ggo] ->
       complete w (pchain zc Pr Ps) (fun P => PH P (chain (get_challenge_scalar z) [gsv; gsc; gtp; gtn; gsn; ggo] gr))) ->
    (md = true -> b0 = false -> checked pc obs nbs gK gr gso gsv gsc gtp gtn gsn ggo gc gn y x yn z packeds gmss us) ->
    hon (g_verify_proof_with one pchain self bc Kc ol ds nl) (fun _ => b0 = false -> checked pc obs nbs gK gr gso gsv gsc gtp gtn gsn ggo gc gn y x yn z packeds gmss us).
  Proof.
    intros pf pc Hb HK RK Rr Rso Rsc Rtp Rtn Rsn Rgo Rc Rn HOL HDS HNL Lo Ln DA (t1 & t2 & t3 & C1 & C2 & C3 & C4) HS Lk Lkd La HM HU HPC EC.
    unfold g_verify_proof_with.
    eapply hon_nsbc; [apply (J_t_new FL one w w_one true)|]. cbv beta. intros T0 HT0.
    eapply hon_nsbc; [apply (H_commit CL one w w_one _ _ _ (Point K) _ HT0 HK RK)|]. cbv beta. intros T1 HT1.
    apply (V_witness_commit CL one w w_one self D OD _ _ (Point (pf_r_commitment pf)) gr T1 _ _ _ (rep0 CL) eq_refl Rr HT1). intros Pr T2 HPr HT2.
    rewrite <- (append_cons (C := C) rescue_new) in HT2.
    eapply hon_nsbc; [apply (H_challenge CL one w w_one _ _ y t1 HT2 C1)|]. intros [yc T3] [HT3 Hyc].
    apply (V_witness_commit CL one w w_one self D OD _ _ (Point (pf_s_cur_commitment pf)) gsc T3 _ _ _ (rep0 CL) eq_refl Rsc HT3). intros Psc T4 HPsc HT4.
    apply (V_witness_commit CL one w w_one self D OD _ _ (Point (pf_t_positive_commitment pf)) gtp T4 _ _ _ (rep0 CL) eq_refl Rtp HT4). intros Ptp T5 HPtp HT5.
    apply (V_witness_commit CL one w w_one self D OD _ _ (Point (pf_t_negative_commitment pf)) gtn T5 _ _ _ (rep0 CL) eq_refl Rtn HT5). intros Ptn T6 HPtn HT6.
    rewrite <- !appended_app in HT6. cbn [app] in HT6.
    eapply hon_nsbc; [apply (H_challenge CL one w w_one _ _ x t2 HT6 C2)|]. intros [xc T7] [HT7 Hxc].
    apply (V_witness_commit CL one w w_one self D OD _ _ (Point (pf_c_commitment pf)) gc T7 _ _ _ (rep0 CL) eq_refl Rc HT7). intros Pc T8 HPc HT8.
    eapply hon_nsbc; [apply (H_challenge CL one w w_one _ _ yn t3 HT8 C3)|]. intros [ync T9] [HT9 Hync].
    apply (V_witness_commit CL one w w_one self D OD _ _ (Point (pf_s_new_commitment pf)) gsn T9 _ _ _ (rep0 CL) eq_refl Rsn HT9). intros Psn T10 HPsn HT10.
    apply (V_gen CL w). intros Pg HPg.
    eapply (V_opening CL one w w_one Pg T10 _ ds dbs _ (d_ky_opening D) _ _ HPg HT10 HDS); [exact (dat_ky _ _ _ _ _ DA)|]. intros Oky T11 HOky HT11.
    eapply (V_opening CL one w w_one Pg T11 _ ds dbs _ (d_rx_opening D) _ _ HPg HT11 HDS); [exact (dat_rx _ _ _ _ _ DA)|]. intros Orx T12 HOrx HT12.
    eapply (V_opening CL one w w_one Pg T12 _ ds dbs _ (d_rxy_opening D) _ _ HPg HT12 HDS); [exact (dat_rxy _ _ _ _ _ DA)|]. intros Orxy T13 HOrxy HT13.
    apply (V_witness_commit CL one w w_one self D OD _ _ (Scal (pf_sx_old_opening pf)) (zs (pf_sx_old_opening pf) gen) T13 _ _ _ (rep_scalar0 CL) eq_refl (rep_scalar CL _) HT13). intros Oso T14 HOso HT14.
    eapply (V_opening CL one w w_one Pg T14 _ ds dbs _ (d_sx_cur_opening D) _ _ HPg HT14 HDS); [exact (dat_sx _ _ _ _ _ DA)|]. intros Osc T15 HOsc HT15.
    eapply (V_opening CL one w w_one Pg T15 _ ds dbs _ (d_tx_positive_opening D) _ _ HPg HT15 HDS); [exact (dat_txp _ _ _ _ _ DA)|]. intros Otp T16 HOtp HT16.
    eapply (V_opening CL one w w_one Pg T16 _ ds dbs _ (d_tx_negative_opening D) _ _ HPg HT16 HDS); [exact (dat_txn _ _ _ _ _ DA)|]. intros Otn T17 HOtn HT17.
    apply (V_witness_commit CL one w w_one self D OD _ _ (Scal (pf_sx_new_opening pf)) (zs (pf_sx_new_opening pf) gen) T17 _ _ _ (rep_scalar0 CL) eq_refl (rep_scalar CL _) HT17). intros Osn T18 HOsn HT18.
    eapply (V_opening CL one w w_one Pg T18 _ ds dbs _ (d_gx_old_opening D) _ _ HPg HT18 HDS); [exact (dat_gx _ _ _ _ _ DA)|]. intros Ogx T19 HOgx HT19.
    rewrite <- !appended_app in HT19. cbn [app] in HT19.
    eapply hon_nsbc; [apply (H_challenge CL one w w_one _ _ z t HT19 C4)|]. intros [zc T20] [HT20 Hzc].
    eapply hon_bindc; [apply (H_witness_of CL one w w_one self D OD _ _ gso (rep0 CL) Rso)|]. cbv beta. intros Pso HPso.
    assert (Xo : 0 + 256 + 256 <= length obs) by lia. assert (Xo' : 256 * 2 + 128 + 256 + 256 <= length obs) by lia.
    eapply hon_bind; [apply (V_point_equal CL one w w_one _ bc b0 Pso gso ol obs 0 Hb HPso HOL Xo); intros Em E; exact (ch_so _ _ _ _ _ _ _ _ _ _ _ _ _ _ _ _ _ _ _ _ _ (EC Em E))|]. cbv beta. intros [] Fso.
    eapply hon_bindc; [apply (H_witness_of CL one w w_one self D OD _ _ ggo (rep0 CL) Rgo)|]. cbv beta. intros Pgo HPgo.
    eapply hon_bind; [apply (V_point_equal CL one w w_one _ bc b0 Pgo ggo ol obs (256 * 2 + 128) Hb HPgo HOL Xo'); intros Em E; exact (ch_go _ _ _ _ _ _ _ _ _ _ _ _ _ _ _ _ _ _ _ _ _ (EC Em E))|]. cbv beta. intros [] Fgo.
    eapply hon_nsbc; [apply (HPC zc Pr _ Hzc HPr); repeat (constructor; [eassumption|]); constructor|]. cbv beta. intros Pp HPp.
    eapply hon_nsbc; [apply (H_chain CL one w w_one HB1 HB2 zc z _ [zs (pf_sx_old_opening pc) gen; zs (pf_sx_cur_opening pc) gen; zs (pf_tx_positive_opening pc) gen; zs (pf_tx_negative_opening pc) gen; zs (pf_sx_new_opening pc) gen; zs (d_gx_old_opening D) gen] Hzc)
       with (g := zs (pf_rx_opening pc) gen); [repeat (constructor; [assumption|]); constructor|exact HOrx]|]. cbv beta. intros Po HPo.
    eapply hon_nsbc; [apply (H_chain CL one w w_one HB1 HB2 zc z _ [gc] Hzc) with (g := gK); [repeat (constructor; [assumption|]); constructor|exact HK]|]. cbv beta. intros Pq HPq.
    eapply hon_nsbc; [apply (H_chain CL one w w_one HB1 HB2 zc z _ [zs (pf_sx_cur_opening pc) gen] Hzc) with (g := zs (d_ky_opening D) gen); [repeat (constructor; [assumption|]); constructor|exact HOky]|]. cbv beta. intros Pqo HPqo.
    eapply hon_bindc; [apply (H_slices (fun i => 256 * (7 + i) + (4 + 2 * k) * 128) 256 ds dbs HDS); intros i Hi; rewrite (dat_len _ _ _ _ _ DA); apply in_seq in Hi; lia|].
    cbv beta. intros bl Hbl.
    eapply hon_nsb.
    { eapply (V_inner bc b0 T20 t t' _ (gclaims (get_challenge_scalar z) pc (d_ky_opening D) (d_gx_old_opening D) gK gr gsv gsc gtp gtn gsn ggo gc) bl gn mss packeds gmss us
        (fun j _ bj a => nth_error (mo_a (pf_inner_product pf)) j = Some a /\ nth_error [d_b_x D; d_b_xy D; d_b_y_old D; d_b_y_cur D; d_b_y_new D] j = Some bj) Hb HT20); try eassumption.
      - repeat (constructor; [split; assumption|]). constructor.
      - reflexivity.
      - intros j gv Hj. assert (Hj5 : j < 5).
        { apply (Nat.lt_le_trans _ (length (grounds us gmss (gclaims (get_challenge_scalar z) pc (d_ky_opening D) (d_gx_old_opening D) gK gr gsv gsc gtp gtn gsn ggo gc)))).
          - apply nth_error_Some. rewrite Hj. discriminate.
          - generalize (gclaims (get_challenge_scalar z) pc (d_ky_opening D) (d_gx_old_opening D) gK gr gsv gsc gtp gtn gsn ggo gc), (eq_refl : length (gclaims (get_challenge_scalar z) pc (d_ky_opening D) (d_gx_old_opening D) gK gr gsv gsc gtp gtn gsn ggo gc) = 5).
            clear. intros l. revert gmss us. assert (X : forall gmss us l, length l <= 5 -> length (grounds us gmss l) <= 5).
            { intros gmss us; revert gmss; induction us as [|[u ui] us IH]; intros [|gms gmss] l' Hl; cbn [VerifierRoundsP.grounds]; try exact Hl. apply IH. unfold ground. rewrite map_length, combine_length. lia. }
            intros gmss us Hl. apply X. lia. }
        assert (Hbj : exists bj, nth_error [d_b_x D; d_b_xy D; d_b_y_old D; d_b_y_cur D; d_b_y_new D] j = Some bj).
        { destruct (nth_error [d_b_x D; d_b_xy D; d_b_y_old D; d_b_y_cur D; d_b_y_new D] j) eqn:E; [eexists; reflexivity|]. apply nth_error_None in E. cbn in E. lia. }
        assert (Hax : exists a, nth_error (mo_a (pf_inner_product pf)) j = Some a).
        { destruct (nth_error (mo_a (pf_inner_product pf)) j) eqn:E; [eexists; reflexivity|]. apply nth_error_None in E. lia. }
        destruct Hbj as (bj & Ebj). destruct Hax as (a & Ea).
        assert (Hl : exists l, nth_error bl j = Some l /\ BH l (firstn 256 (skipn (256 * (7 + j) + (4 + 2 * k) * 128) dbs))).
        { clear - Hbl Hj5. assert (X : forall n is ls, Forall2 (fun i l => BH l (firstn 256 (skipn (256 * (7 + i) + (4 + 2 * k) * 128) dbs))) is ls -> forall i, nth_error is n = Some i -> exists l, nth_error ls n = Some l /\ BH l (firstn 256 (skipn (256 * (7 + i) + (4 + 2 * k) * 128) dbs))).
          { induction n as [|n IH]; intros is ls H i E; destruct H as [|i' l is ls H Hs]; cbn [nth_error] in E; try discriminate; [injection E as <-; exists l; split; [reflexivity|exact H]|].
            destruct (IH is ls Hs i E) as (l' & E' & H'). exists l'. split; assumption. }
          apply (X j (seq 0 5) bl Hbl j). destruct j as [|[|[|[|[|j]]]]]; try reflexivity. lia. }
        destruct Hl as (l & El & Hl). exists l, (firstn 256 (skipn (256 * (7 + j) + (4 + 2 * k) * 128) dbs)), bj, a.
        split; [exact El|]. split; [exact Hl|]. split; [apply (dat_b _ _ _ _ _ DA j bj Ebj)|]. split; [split; assumption|]. split; [exact Ea|]. intros Em E. exact (ch_f _ _ _ _ _ _ _ _ _ _ _ _ _ _ _ _ _ _ _ _ _ (EC Em E) j gv a bj Hj Ea Ebj). }
    intros [Gn packed] (HGn & HPK & FF).
    assert (Xn : 0 + 256 + 256 <= length nbs) by lia. assert (Xn' : 256 * 2 + 128 + 256 + 256 <= length nbs) by lia. assert (Xny : 512 + 128 <= length nbs) by lia.
    eapply hon_bind; [apply (V_point_equal CL one w w_one _ bc b0 Psn gsn nl nbs 0 Hb HPsn HNL Xn); intros Em E; exact (ch_sn _ _ _ _ _ _ _ _ _ _ _ _ _ _ _ _ _ _ _ _ _ (EC Em E))|]. cbv beta. intros [] Fsn.
    apply (V_challenge_equal CL one w w_one _ bc b0 ync yn nl nbs 512 _ _ Hb Hync HNL Xny); [intros Em E; exact (ch_yn _ _ _ _ _ _ _ _ _ _ _ _ _ _ _ _ _ _ _ _ _ (EC Em E))|]. intro Fyn.
    eapply hon_bind; [apply (V_point_equal CL one w w_one _ bc b0 Gn gn nl nbs (256 * 2 + 128) Hb HGn HNL Xn'); intros Em E; exact (ch_gn _ _ _ _ _ _ _ _ _ _ _ _ _ _ _ _ _ _ _ _ _ (EC Em E))|]. cbv beta. intros [] Fgn.
    assert (Lp : length packeds = k).
    { rewrite <- Lk. clear - HS. induction HS; [reflexivity|]. cbn [length]. rewrite IHHS. reflexivity. }
    eapply hon_bind with (Q1 := fun _ => b0 = false -> forall i c, nth_error packeds i = Some c ->
        bits_val (firstn 128 (skipn (256 * 4 + 128 + 128 * i) nbs)) = vs c /\ nth_error (d_challenges_sq_packed_new D) i = Some c).
    { unfold enumerate. rewrite (UnpackP.Forall2_length _ _ _ HPK).
      assert (X : forall l cs i, Forall2 CH l cs -> i + length cs = k -> (forall j c, nth_error cs j = Some c -> nth_error packeds (i + j) = Some c) ->
        hon (foldM (fun (_ : unit) '(i, challenge_sq_packed) =>
          bind (bits_at nl (256 * 4 + 128 + 128 * i) 128) (fun bits =>
          bind (namespace "challenge in new_leftovers" (equal_unless_base_case one bc challenge_sq_packed bits)) (fun _ =>
          bind (bits_at ds (4 * 128 + 6 * 256 + k * 128 + 256 + i * 128) 128) (fun bits =>
          namespace "challenge in new_deferred" (equal_unless_base_case one bc challenge_sq_packed bits))))) (combine (seq i (length cs)) l) tt)
          (fun _ => b0 = false -> forall j c, nth_error cs j = Some c ->
            bits_val (firstn 128 (skipn (256 * 4 + 128 + 128 * (i + j)) nbs)) = vs c /\ nth_error (d_challenges_sq_packed_new D) (i + j) = Some c)).
      { intros l cs i HF. revert i. induction HF as [|z0 c l cs Hz _ IH]; intros i Hi HN; cbn [length seq combine foldM]; [apply hon_ret; intros _ [|j] c E; discriminate E|].
        cbn [length] in Hi. pose proof (HN 0 c eq_refl) as Hc. rewrite Nat.add_0_r in Hc.
        assert (Hd : exists dc, nth_error (d_challenges_sq_packed_new D) i = Some dc).
        { destruct (nth_error (d_challenges_sq_packed_new D) i) eqn:E; [eexists; reflexivity|]. apply nth_error_None in E. lia. }
        destruct Hd as (dc & Ed). pose proof (dat_new _ _ _ _ _ DA i dc Ed) as Hat.
        eapply hon_bind with (Q1 := fun _ => b0 = false -> bits_val (firstn 128 (skipn (256 * 4 + 128 + 128 * i) nbs)) = vs c /\ dc = c).
        2: { intros [] F0. eapply hon_weaken; [apply IH; [lia|]; intros j c' Hj; replace (S i + j) with (i + S j) by lia; apply HN; exact Hj|].
          cbv beta. intros _ FS E [|j] c' Hj; cbn [nth_error] in Hj.
          - injection Hj as <-. rewrite Nat.add_0_r. destruct (F0 E) as [F1 <-]. split; [exact F1|exact Ed].
          - replace (i + S j) with (S i + j) by lia. exact (FS E j c' Hj). }
        assert (H1 : 256 * 4 + 128 + 128 * i + 128 <= length nbs) by lia.
        destruct Hz as (zb & HZ & LZ & VZ).
        apply (V_bits_at w nl nbs _ _ _ _ HNL H1). intros lb Hlb.
        eapply hon_nsb.
        { apply (V_value CL one w w_one bc b0 _ _ _ _ (vs c) Hb HZ Hlb); [rewrite firstn_length, skipn_length; lia|exact VZ|].
          intros Em E. exact (ch_c _ _ _ _ _ _ _ _ _ _ _ _ _ _ _ _ _ _ _ _ _ (EC Em E) i c Hc). }
        cbv beta. intros [] F1. apply (V_bits_at w ds dbs _ _ _ _ HDS); [apply Hat|]. intros db Hdb.
        pose proof (at_exact _ _ _ dc (le_n _) Hat) as Hex.
        apply hon_ns. eapply hon_weaken; [apply (V_value CL one w w_one bc b0 _ _ _ _ (vs c) Hb HZ Hdb); [destruct Hat as [Hat _]; rewrite firstn_length, skipn_length; lia|exact VZ|]|].
        - intros Em E. pose proof (ch_dn _ _ _ _ _ _ _ _ _ _ _ _ _ _ _ _ _ _ _ _ _ (EC Em E)) as ED4. assert (dc = c) by congruence. subst dc. exact Hex.
        - cbv beta. intros _ F2 E. split; [exact (F1 E)|]. apply (ol_inj _ _ _ SO). rewrite <- (F2 E). symmetry. exact Hex. }
      apply (X packed packeds 0 HPK); [lia|]. intros j c Hj. exact Hj. }
    intros [] Fc.
    apply (V_challenge_equal CL one w w_one _ bc b0 xc x ds dbs 0 _ _ Hb Hxc HDS (proj1 (dat_x _ _ _ _ _ DA))).
    { intros Em E. rewrite <- (ch_dx _ _ _ _ _ _ _ _ _ _ _ _ _ _ _ _ _ _ _ _ _ (EC Em E)). apply at_exact; [apply le_n|apply DA]. }
    intro Fx.
    apply (V_challenge_equal CL one w w_one _ bc b0 yc y ds dbs (128 * 2) _ _ Hb Hyc HDS (proj1 (dat_y_cur _ _ _ _ _ DA))).
    { intros Em E. rewrite <- (ch_dy _ _ _ _ _ _ _ _ _ _ _ _ _ _ _ _ _ _ _ _ _ (EC Em E)). apply at_exact; [apply le_n|apply DA]. }
    intro Fy.
    destruct Hync as (zb & HZ & LZ & VZ). pose proof (dat_y_new _ _ _ _ _ DA) as Hat.
    apply (V_bits_at w ds dbs _ _ _ _ HDS (proj1 Hat)). intros db Hdb.
    apply hon_ns. eapply hon_weaken; [apply (V_value CL one w w_one bc b0 _ _ _ _ (vs yn) Hb HZ Hdb); [destruct Hat as [Hat _]; rewrite firstn_length, skipn_length; lia|exact VZ|]|].
    { intros Em E. rewrite <- (ch_dyn _ _ _ _ _ _ _ _ _ _ _ _ _ _ _ _ _ _ _ _ _ (EC Em E)). apply at_exact; [apply le_n|exact Hat]. }
    cbv beta. intros _ Fdy E.
    constructor; [exact (Fso E)|exact (Fgo E)|exact (Fsn E)|exact (Fyn E)|exact (Fgn E)|intros i c Hc; apply (Fc E i c Hc)| | | | |].
    - apply (ol_inj _ _ _ SO). rewrite <- (Fx E). symmetry. apply at_exact; [apply le_n|apply DA].
    - apply (ol_inj _ _ _ SO). rewrite <- (Fy E). symmetry. apply at_exact; [apply le_n|apply DA].
    - apply (ol_inj _ _ _ SO). rewrite <- (Fdy E). symmetry. apply at_exact; [apply le_n|exact Hat].
    - apply nth_ext_error; [congruence|]. intros i c Hc. apply (Fc E i c Hc).
    - intros j gv a bj Hj Ha Hbj. destruct (FF E j gv Hj) as (bj' & a' & [Ea Eb] & F1 & F2).
      assert (a' = a) by (change (mo_a (pf_inner_product pc)) with (mo_a (pf_inner_product pf)) in Ha; congruence). assert (bj' = bj) by congruence. subst. split; assumption.
  Qed.
End Verifier.
