(** The two ways to satisfy the recursive verification circuit: a proof that verifies,
    or the base case. *)
From Coq Require Import String List Bool Arith ZArith Lia Ring Field.
From Verif Require Import Lib.AbGroup Lib.Abel Model.FieldTrait Model.Circuits Model.Num Model.Boolean Model.Curve Model.Ecc Model.Threads Model.Params Model.Util
  Model.Rescue Model.RescueGadget Model.Opening Model.Proofs Model.Recursion
  Spec.FieldLaws Spec.CircuitSpec Spec.NumSpec Spec.BoolSpec Spec.UtilSpec Spec.CurveSpec Spec.CheatSpec Spec.CurveLaws Spec.EccSpec Spec.ProofSpec Spec.VerifySpec Spec.RecursionSpec Spec.RecursiveCircuitSpec
  Proofs.FieldGen Proofs.ZtoF Proofs.CircuitP Proofs.LcP Proofs.NumP Proofs.BoolP Proofs.UnpackP Proofs.ChallengeP Proofs.CurveTop Proofs.EccP Proofs.EccAddP Proofs.EccMulP Proofs.MultiexpP Proofs.IdentityP
  Proofs.DeferredTop Proofs.OpeningP Proofs.OpeningTop Proofs.ProverLemmas Proofs.ProverTop
  Proofs.RescueGadgetP Proofs.RecursionP Proofs.ModeP Proofs.RecursionDeferredP Proofs.TranscriptGadgetP Proofs.EncodeP Proofs.RecursionGlue Proofs.VerifyP Proofs.VerifyTop Proofs.SliceP Proofs.HonP Proofs.VerifierGadgetP
  Proofs.VerifierRoundsP Proofs.VerifierCircuitP Proofs.VerifierChecksP Proofs.VerifierTopP.
Import ListNotations.
Open Scope nat_scope. Open Scope list_scope.

Section Step.
  Context {C : Curve} {q vb r vs} (CL : CurveLaws C q vb r vs).
  Notation F := (Scalar C).
  Let FL : FieldLaws (Base C) q vb := cl_base _ _ _ _ _ CL.
  Let SL : FieldLaws F r vs := cl_scalar _ _ _ _ _ CL.
  Let SO : OpsLaws F r vs := fl_ops _ _ _ SL.
  Add Field Fs : (ffield SO).
  Notation G := (cl_group _ _ _ _ _ CL).
  Notation pt := (cl_point _ _ _ _ _ CL).
  Notation gen := (cl_gen _ _ _ _ _ CL).
  Notation rep := (CurveTop.rep CL).
  Notation zs := (EccMulP.zs CL).
  Notation zsum := (MultiexpP.zsum CL).
  Notation mrep := (mrep CL).
  Implicit Types (g h : G).

  Lemma scaled_ex (packeds : list F) : exists us, Forall2 scaled packeds us.
  Proof.
    induction packeds as [|c l (us & IH)]; [exists []; constructor|].
    destruct (challenge_nonzero SL SL c) as (i & _ & Hi). exists ((get_challenge_scalar c, i) :: us). constructor; [split; [reflexivity|exact Hi]|exact IH].
  Qed.
  Lemma messages_group m (round : InnerProductRound C) ms : sent m round ms -> Forall valid (ip_L round) -> Forall valid (ip_R round) -> exists gms, Forall2 mrep ms gms.
  Proof.
    intros (_ & H1 & H2 & _ & _) V1 V2.
    assert (X : Forall valid (map (fun '(L, _, _, _) => L) ms) /\ Forall valid (map (fun '(_, R, _, _) => R) ms)).
    { rewrite <- H1, <- H2. split; apply Forall_forall; intros x Hx; [apply (proj1 (Forall_forall _ _) V1)|apply (proj1 (Forall_forall _ _) V2)].
      - rewrite <- (firstn_skipn m). apply in_or_app. left. exact Hx.
      - rewrite <- (firstn_skipn m). apply in_or_app. left. exact Hx. }
    clear H1 H2 V1 V2. destruct X as [V1 V2]. induction ms as [|[[[L R] l] rr] ms IH]; [exists []; constructor|]. cbn [map] in V1, V2.
    inversion V1 as [|a1 l1 [A HA] W1]; subst. inversion V2 as [|a2 l2 [B HB] W2]; subst. destruct (IH W1 W2) as (gms & H).
    destruct (rep_ex CL L A HA) as (gL & -> & RL). destruct (rep_ex CL R B HB) as (gR & -> & RR).
    exists ((gL, gR, zs l gen, zs rr gen) :: gms). constructor; [|exact H]. cbn. auto.
  Qed.
  Lemma said_group m t rounds mss packeds forks t' : said (C := C) m t rounds mss packeds forks t' -> Forall (fun round => Forall valid (ip_L round) /\ Forall valid (ip_R round)) rounds ->
    exists gmss, Forall2 (Forall2 mrep) mss gmss.
  Proof.
    induction 1 as [t|t round ms n c t1 rounds mss packeds fs t' HS Hn HC _ IH]; intro HV; [exists []; constructor|].
    inversion HV as [|a l [V1 V2] HV']; subst. destruct (IH HV') as (gmss & H). destruct (messages_group _ _ _ HS V1 V2) as (gms & Hm). exists (gms :: gmss). constructor; assumption.
  Qed.
  Lemma challenge_small t (c : F) t' : challenge_after (C := C) t c t' -> small c.
  Proof.
    intros (e & _ & H). unfold small. rewrite H. pose proof (Z.mod_pos_bound (le_val (f_to_bytes e)) (2 ^ 127) eq_refl) as HB.
    replace (2 ^ 128)%Z with (2 ^ 127 + 2 ^ 127)%Z by reflexivity. apply Z.add_lt_mono_l, HB.
  Qed.
  Lemma said_small m t rounds mss packeds forks t' : said (C := C) m t rounds mss packeds forks t' -> Forall small packeds.
  Proof. induction 1 as [t|t round ms n c t1 rounds mss packeds fs t' HS Hn HC _ IH]; constructor; [exact (challenge_small _ _ _ HC)|exact IH]. Qed.
  Lemma said_length m t rounds mss packeds forks t' : said (C := C) m t rounds mss packeds forks t' -> length packeds = length rounds.
  Proof. induction 1; [reflexivity|]. cbn [length]. congruence. Qed.

  (** *** the five claims *)
  Lemma chain_zsum (z : F) gs : forall g, chain CL z gs g = zsum (map vs (rev (powers z (S (length gs))))) (g :: gs).
  Proof.
    induction gs as [|h gs IH]; intro g.
    - cbn [chain length]. unfold chain. cbn [fold_left]. change (powers z 1) with [fone : F]. cbn [rev app map MultiexpP.zsum]. rewrite (ol_one _ _ _ SO). abel.
    - cbn [length]. unfold chain in *. cbn [fold_left]. rewrite (IH (gp (zs z g) h)). rewrite !rev_powers. cbn [map MultiexpP.zsum fpow].
      unfold EccMulP.zs. rewrite (ol_mul _ _ _ SO), (CurveTop.zmul_vs_mod CL), (Z.mul_comm (vs z)), zmul_mul. abel.
  Qed.
  Lemma chain_openings (z : F) xs x : chain CL z (map (fun v => zs v gen) xs) (zs x gen) = zs (dot (rev (powers z (S (length xs)))) (x :: xs)) gen.
  Proof.
    rewrite chain_zsum, map_length. change (zs x gen :: map (fun v => zs v gen) xs) with (map (fun v => zs v gen) (x :: xs)). apply (zsum_dot CL).
    rewrite rev_length. unfold powers. rewrite map_length, seq_length. reflexivity.
  Qed.
  Lemma claims_group K pf L (ky gx y x yn z : F) claims gK gr gso gsc gtp gtn gsn ggo gc :
    five_claims K pf L ky gx y x yn z claims -> rep K gK -> rep (pf_r_commitment pf) gr -> rep (s_new_commitment L) gso -> rep (pf_s_cur_commitment pf) gsc ->
    rep (pf_t_positive_commitment pf) gtp -> rep (pf_t_negative_commitment pf) gtn -> rep (pf_s_new_commitment pf) gsn -> rep (g_new L) ggo -> rep (pf_c_commitment pf) gc ->
    length claims = 5 /\ forall j claim, nth_error claims j = Some claim -> exists gP, rep (po_commitment claim) gP /\
      nth_error (gclaims CL z pf ky gx gK gr gso gsc gtp gtn gsn ggo gc) j = Some (gP, zs (po_opening claim) gen) /\
      nth_error [x; fmul x y; y_new L; y; yn] j = Some (po_point claim).
  Proof.
    intros (P1 & P4 & A & B & H1 & H2 & C1 & C2 & E1 & E2 & E3) RK Rr Rso Rsc Rtp Rtn Rsn Rgo Rc.
    assert (HL : length claims = 5) by (rewrite <- (map_length po_commitment), E1; reflexivity). split; [exact HL|].
    apply (combination_iff CL _ _ [gr; gso; gsc; gtp; gtn; gsn; ggo]) in C1; [|repeat (constructor; [assumption|]); constructor|reflexivity].
    apply (combination_iff CL _ _ [gc; gK]) in C2; [|repeat (constructor; [assumption|]); constructor|reflexivity].
    pose proof (chain_zsum z [gso; gsc; gtp; gtn; gsn; ggo] gr) as CZ. cbn [length] in CZ. unfold falling in *. rewrite <- CZ in C1. clear CZ. subst A.
    assert (X : B = pt (chain CL z [gc] gK)). { rewrite C2. f_equal. unfold chain, EccMulP.zs. cbn [fold_left map MultiexpP.zsum]. rewrite (ol_one _ _ _ SO). abel. }
    rewrite X in H2. clear X C2.
    intros j claim Hj. pose proof (map_nth_error po_commitment _ _ Hj) as N1. pose proof (map_nth_error po_opening _ _ Hj) as N2. pose proof (map_nth_error po_point _ _ Hj) as N3.
    rewrite E1 in N1. rewrite E2 in N2. rewrite E3 in N3.
    assert (Y : zs (fadd (pf_sx_cur_opening pf) (fmul z ky)) gen = chain CL z [zs (pf_sx_cur_opening pf) gen] (zs ky gen)).
    { unfold chain. cbn [fold_left]. rewrite (zs_add CL), (zs_mul CL). abel. }
    destruct j as [|[|[|[|[|j]]]]]; cbn [nth_error] in N1, N2, N3; [| | | | |destruct j; discriminate N1];
      injection N1 as <-; injection N2 as <-; injection N3 as <-; (eexists; split; [eassumption|]; split; [|reflexivity]); cbn [gclaims nth_error]; [|reflexivity|reflexivity|rewrite Y; reflexivity|reflexivity].
    f_equal. f_equal. exact (chain_openings z [pf_sx_old_opening pf; pf_sx_cur_opening pf; pf_tx_positive_opening pf; pf_tx_negative_opening pf; pf_sx_new_opening pf; gx] (pf_rx_opening pf)).
  Qed.

  Variable one : Var.
  Variable w : assignment (Base C).
  Hypothesis w_one : w one = fone.
  Hypothesis HB1 : f_BETA = BETA_BASE C.
  Hypothesis HB2 : f_BETA = BETA_SCALAR C.
  Notation BH := (Forall2 (bit_has w)).
  Notation PH := (PH CL w).
  Notation CH := (CH (C := C) (vs := vs) w).
  Variable self : VerificationCircuit C.
  Notation k := (p_k (vc_params self)).


  Lemma bits_point_iff bs o g h : VerifierCircuitP.bits_point CL bs o h -> (VerifierCircuitP.bits_point CL bs o g <-> g = h).
  Proof.
    intros [X Y]. split; [|intros ->; split; assumption]. intros [X' Y']. apply (xy_inj CL); apply (ol_inj _ _ _ (fl_ops _ _ _ FL)); congruence.
  Qed.
  Lemma same_point_iff P Q g h : rep P g -> rep Q h -> (same_point P Q <-> g = h).
  Proof.
    intros HP HQ. split.
    - intros (A & H1 & H2). destruct (rep_ex CL _ _ H1) as (g1 & E & R1). rewrite E in H2. rewrite (rep_fun CL _ _ _ HP R1). exact (rep_fun CL _ _ _ H2 HQ).
    - intros ->. exists (pt h). split; assumption.
  Qed.
  Lemma pieces_inj : forall ns zs1 zs2 bs, length zs1 = length zs2 -> pieces (map (pair ns) zs1) bs -> pieces (map (pair ns) zs2) bs -> zs1 = zs2.
  Proof.
    intros n. induction zs1 as [|z1 zs1 IH]; intros [|z2 zs2] bs HL H1 H2; try discriminate HL; [reflexivity|]. cbn [map] in H1, H2.
    inversion H1 as [|? ? ? b1 bs1 L1 V1 P1]; subst. inversion H2 as [|? ? ? b2 bs2 L2 V2 P2 E1 E2]; subst.
    assert (b1 = b2 /\ bs1 = bs2) as [-> ->]. { assert (HE : firstn (length b1) (b1 ++ bs1) = firstn (length b1) (b2 ++ bs2)) by congruence.
      rewrite firstn_len_app in HE. rewrite <- L2, firstn_len_app in HE. subst b2. split; [reflexivity|]. symmetry. eapply app_inv_head. eassumption. }
    f_equal. apply (IH zs2 bs2); [cbn [length] in HL; congruence|exact P1|exact P2].
  Qed.
  Lemma vs_list_inj (l l' : list F) : map vs l = map vs l' -> l = l'.
  Proof. revert l'. induction l as [|x l IH]; intros [|y l'] E; try discriminate E; [reflexivity|]. cbn [map] in E. injection E as E1 E2. f_equal; [exact (ol_inj _ _ _ SO _ _ E1)|exact (IH _ E2)]. Qed.

  (** what the circuit checks of an old proof, for the conversation at hand *)
  Definition accepted (old : OldProof C) (L' : Leftovers C) (D : Deferred F) (y x yn : F) (packeds : list F) (claims : list (PolynomialOpening C)) : Prop :=
    let pf := op_proof old in let L := op_oldproof1 old in
    (forall j claim a b, nth_error claims j = Some claim -> nth_error (mo_a (pf_inner_product pf)) j = Some a ->
       nth_error [d_b_x D; d_b_xy D; d_b_y_old D; d_b_y_cur D; d_b_y_new D] j = Some b ->
       claim_adds_up (mo_g (pf_inner_product pf)) (mo_rounds (pf_inner_product pf)) packeds j claim a b) /\
    same_point (s_new_commitment L') (pf_s_new_commitment pf) /\ y_new L' = yn /\ same_point (g_new L') (mo_g (pf_inner_product pf)) /\
    challenges_sq_packed_new L' = packeds /\
    d_x D = x /\ d_y_old D = y_new L /\ d_y_cur D = y /\ d_y_new D = yn /\
    d_challenges_sq_packed_old D = challenges_sq_packed_new L /\ d_challenges_sq_packed_new D = packeds.

  (** leftovers with another commitment *)
  Definition virtual (Sv : C) (L : Leftovers C) : Leftovers C := mkLeft Sv (y_new L) (g_new L) (challenges_sq_packed_new L).
  Lemma V_step_with {md} pchain Sv gsv b0 old lb L' D forks K B y x yn z t t' mss packeds claims (IQ : Prop) :
    vc_base_case self = Some b0 -> vc_proof self = Some old -> vc_forkvalues self = Some forks -> vc_old_leftovers self = Some lb ->
    vc_new_leftovers self = Some L' -> vc_deferred self = Some D ->
    let L := op_oldproof1 old in let pf := op_proof old in
    good_generators (vc_params self) ->
    bits_commitment (vc_params self) (bytes_bits (op_payload old) ++ bytes_bits (leftovers_to_bytes L) ++ bytes_bits lb ++ bytes_bits (deferred_to_bytes (op_deferred old))) B ->
    CurveSpec.represents K B ->
    k <= 64 -> proof_of_points k pf L -> length (challenges_sq_packed_new L) = k -> Forall small (y_new L :: challenges_sq_packed_new L) ->
    valid (s_new_commitment L') -> valid (g_new L') -> length (challenges_sq_packed_new L') = k -> Forall small (y_new L' :: challenges_sq_packed_new L') ->
    length (d_challenges_sq_packed_old D) = k -> length (d_challenges_sq_packed_new D) = k -> Forall small (half_parts D) ->
    length (d_challenges_sq_packed_old (op_deferred old)) = k -> length (d_challenges_sq_packed_new (op_deferred old)) = k ->
    Forall small (half_parts (op_deferred old)) ->
    conversation K (claimed D pf) (d_ky_opening D) (d_gx_old_opening D) y x yn z t ->
    five_claims K (claimed D pf) (virtual Sv L) (d_ky_opening D) (d_gx_old_opening D) y x yn (get_challenge_scalar z) claims ->
    said 5 t (mo_rounds (pf_inner_product pf)) mss packeds forks t' ->
    (md = true -> deferred_verify (op_deferred old) k = Some true) ->
    (md = true -> b0 = true -> agree (base_payload (vc_inner self)) (bytes_bits (op_payload old))) ->
    (md = true -> b0 = false -> accepted old L' D y x yn packeds claims) ->
    (forall ob nb, BH ob (bytes_bits (op_payload old)) -> BH nb (bytes_bits (vc_new_payload self)) -> hon w md (inner_synthesize (vc_inner self) one ob nb) (fun _ => IQ)) ->
    rep Sv gsv ->
    (forall gr gso gsc gtp gtn gsn ggo zc Pr Ps, rep (pf_r_commitment pf) gr -> rep (s_new_commitment L) gso -> rep (pf_s_cur_commitment pf) gsc ->
       rep (pf_t_positive_commitment pf) gtp -> rep (pf_t_negative_commitment pf) gtn -> rep (pf_s_new_commitment pf) gsn -> rep (g_new L) ggo ->
       CH zc z -> PH Pr gr -> Forall2 PH Ps [gso; gsc; gtp; gtn; gsn; ggo] ->
       complete w (pchain zc Pr Ps) (fun P => PH P (VerifierCircuitP.chain CL (get_challenge_scalar z) [gsv; gsc; gtp; gtn; gsn; ggo] gr))) ->
    hon w md (vc_synthesize_with one pchain self) (fun _ =>
      (md = false -> exists s t, sign s /\ sign t /\ deferred_verify (with_signs s t (op_deferred old)) k = Some true) /\
      (b0 = true -> agree (base_payload (vc_inner self)) (bytes_bits (op_payload old))) /\
      (b0 = false -> accepted old L' D y x yn packeds claims) /\ IQ).
  Proof.
    intros Eb Ep Ef El EL ED L pf HG HBC HKB Hk (HVs & HW) LL HSm VS' VG' LL' HSm' LD1 LD2 HDsm LO1 LO2 OSm Hconv H5 HSaid OV HPay HAcc HI Rsv HPC.
    destruct HW as (Hk1 & Hkr & Hka & HVg & Hwr).
    destruct (said_group _ _ _ _ _ _ _ HSaid) as (gmss & HM).
    { eapply Forall_impl; [|exact Hwr]. cbv beta. intros round (_ & _ & _ & _ & V1 & V2). split; assumption. }
    destruct (scaled_ex packeds) as (us & HU).
    pose proof (said_length _ _ _ _ _ _ _ HSaid) as HLp. rewrite Hkr in HLp.
    destruct (valid_reps CL _ HVs) as (gv & HGv).
    inversion HGv as [|? gr ? gv1 Rr HG1]; subst. inversion HG1 as [|? gsc ? gv2 Rsc HG2]; subst. inversion HG2 as [|? gtp ? gv3 Rtp HG3]; subst. inversion HG3 as [|? gtn ? gv4 Rtn HG4]; subst.
    inversion HG4 as [|? gc ? gv5 Rc HG5]; subst. inversion HG5 as [|? gsn ? gv6 Rsn HG6]; subst. inversion HG6 as [|? gso ? gv7 Rso HG7]; subst. inversion HG7 as [|? ggo ? gv8 Rgo HG8]; subst.
    clear HGv HG1 HG2 HG3 HG4 HG5 HG6 HG7 HG8.
    destruct HVg as (Ag & HAg). destruct (rep_ex CL _ _ HAg) as (gn & -> & Rn).
    destruct VS' as (As & HAs). destruct (rep_ex CL _ _ HAs) as (gs' & -> & Rs'). destruct VG' as (Ag' & HAg'). destruct (rep_ex CL _ _ HAg') as (gg' & -> & Rg').
    assert (HDA : deferred_at r vs k D (bytes_bits (deferred_to_bytes D))).
    { apply deferred_slices. apply (encodes_bytes r vs SL k D); assumption. }
    assert (HLA : leftovers_at k (vb (abscissa (pt gso))) (vb (ordinate (pt gso))) (vs (y_new L)) (vb (abscissa (pt ggo))) (vb (ordinate (pt ggo))) (map vs (challenges_sq_packed_new L)) (bytes_bits (leftovers_to_bytes L))).
    { rewrite <- LL. inversion HSm as [|? ? S1 S2]; subst. exact (leftovers_pieces CL L _ _ Rso Rgo S1 S2). }
    assert (HLA' : leftovers_at k (vb (abscissa (pt gs'))) (vb (ordinate (pt gs'))) (vs (y_new L')) (vb (abscissa (pt gg'))) (vb (ordinate (pt gg'))) (map vs (challenges_sq_packed_new L')) (bytes_bits (leftovers_to_bytes L'))).
    { rewrite <- LL'. inversion HSm' as [|? ? S1 S2]; subst. exact (leftovers_pieces CL L' _ _ Rs' Rg' S1 S2). }
    (* the two comparisons with the old leftovers *)
    assert (HCH : firstn (128 * k) (skipn (256 * 8) (bytes_bits (deferred_to_bytes D))) = skipn (256 * 4 + 128) (bytes_bits (leftovers_to_bytes L)) <->
      d_challenges_sq_packed_old D = challenges_sq_packed_new L).
    { pose proof (dat_old _ _ _ _ _ HDA) as HN. apply numbers_pieces in HN.
      2: { intros n x0 Hx. apply in_map_iff in Hx. destruct Hx as (y0 & Ey & _). injection Ey as <- <-.
        eapply Z.le_trans; [|apply Z.lt_le_incl, (fl_size _ _ _ SL)]. apply Z.pow_le_mono_r; lia. }
      rewrite map_map in HN. pose proof (lat_cs _ _ _ _ _ _ _ _ HLA) as HC.
      assert (HN' : pieces (map (pair 128) (map vs (d_challenges_sq_packed_old D))) (firstn (128 * k) (skipn (256 * 8) (bytes_bits (deferred_to_bytes D))))) by (rewrite map_map; exact HN).
      split; intro E.
      - apply vs_list_inj, (pieces_inj 128 _ _ (skipn (256 * 4 + 128) (bytes_bits (leftovers_to_bytes L)))); [rewrite !map_length; congruence|rewrite <- E; exact HN'|exact HC].
      - eapply pieces_unique; [exact HN'|]. rewrite E. exact HC. }
    assert (HYO : firstn 128 (skipn (128 * 1) (bytes_bits (deferred_to_bytes D))) = firstn 128 (skipn (256 * 2) (bytes_bits (leftovers_to_bytes L))) <-> d_y_old D = y_new L).
    { pose proof (dat_y_old _ _ _ _ _ HDA) as Hat. apply (at_exact CL) in Hat; [|apply le_n]. pose proof (lat_y _ _ _ _ _ _ _ _ HLA) as Hy.
      change (128 * 1) with 128. change (256 * 2) with 512. split; intro E.
      - apply (ol_inj _ _ _ SO). rewrite <- Hat, <- Hy, E. reflexivity.
      - apply bits_val_inj; [|congruence]. rewrite !firstn_length, !skipn_length, (dat_len _ _ _ _ _ HDA), (lat_len _ _ _ _ _ _ _ _ HLA). lia. }
    assert (EV : virt self D (op_deferred old) = old) by (unfold virt; rewrite Ep; reflexivity).
    set (VQ := forall gK, B = pt gK -> checked CL D (claimed D pf) (bytes_bits (leftovers_to_bytes L)) (bytes_bits (leftovers_to_bytes L')) gK gr gso gsv gsc gtp gtn gsn ggo gc gn y x yn z packeds gmss us).
    assert (HEX : exists gK, B = pt gK) by (destruct (rep_ex CL _ _ HKB) as (gK & E & _); exists gK; exact E).
    assert (HV : VQ -> d_challenges_sq_packed_old D = challenges_sq_packed_new L -> d_y_old D = y_new L -> accepted old L' D y x yn packeds claims).
    { intros HQ E1 E2. destruct HEX as (gK & EB). specialize (HQ gK EB).
      assert (RK : rep K gK) by (unfold CurveTop.rep; rewrite <- EB; exact HKB).
      destruct (claims_group _ _ _ _ _ _ _ _ _ _ gK gr gsv gsc gtp gtn gsn ggo gc H5 RK Rr Rsv Rsc Rtp Rtn Rsn Rgo Rc) as (HL5 & HCG).
      assert (EP : challenges_sq_packed_new L' = packeds).
      { apply nth_ext_error; [congruence|]. intros i c Hc. pose proof (ch_c _ _ _ _ _ _ _ _ _ _ _ _ _ _ _ _ _ _ _ _ _ _ _ HQ i c Hc) as E.
        destruct (nth_error (challenges_sq_packed_new L') i) as [c'|] eqn:Ec.
        - pose proof (lat_c _ _ _ _ _ _ _ _ HLA' i _ (map_nth_error vs _ _ Ec)) as E'. f_equal. apply (ol_inj _ _ _ SO). congruence.
        - exfalso. apply nth_error_None in Ec. assert (i < length packeds) by (apply nth_error_Some; rewrite Hc; discriminate). lia. }
      unfold accepted. cbv zeta. fold pf. fold L. split.
      { intros j claim a bj Ecl Ha Hbj. destruct (HCG j claim Ecl) as (gP & RP & Ngc & _).
        assert (Hj : j < 5) by (rewrite <- HL5; apply nth_error_Some; rewrite Ecl; discriminate).
        destruct (nth_error (VerifierRoundsP.grounds CL us gmss (gclaims CL (get_challenge_scalar z) (claimed D pf) (d_ky_opening D) (d_gx_old_opening D) gK gr gsv gsc gtp gtn gsn ggo gc)) j) as [[p v]|] eqn:EG.
        - apply (adds_up_group CL t _ mss packeds forks t' gmss us j claim a _ gn gP p v _ bj HSaid HM HU Hj Rn RP Ngc EG).
          exact (ch_f _ _ _ _ _ _ _ _ _ _ _ _ _ _ _ _ _ _ _ _ _ _ _ HQ j (p, v) a bj EG Ha Hbj).
        - exfalso. destruct (said_columns _ _ _ _ _ _ j HSaid Hj) as (Ls & Rs & ls & rs & C1 & C2 & C3 & C4).
          destruct (said_column CL _ _ _ _ _ _ HSaid gmss j HM Hj _ _ _ _ C1 C2 C3 C4) as (col & Q1 & Q2 & _).
          rewrite (grounds_nth CL j us gmss col Q1) with (p := gP) (v := zs (po_opening claim) gen) in EG; [discriminate EG| |exact Ngc].
          rewrite <- (UnpackP.Forall2_length _ _ _ HU), (UnpackP.Forall2_length _ _ _ Q1). congruence. }
      split. { apply (same_point_iff _ _ gs' gsn Rs' Rsn). symmetry. apply (bits_point_iff (bytes_bits (leftovers_to_bytes L')) 0); [split; apply HLA'|exact (ch_sn _ _ _ _ _ _ _ _ _ _ _ _ _ _ _ _ _ _ _ _ _ _ _ HQ)]. }
      split. { apply (ol_inj _ _ _ SO). rewrite <- (ch_yn _ _ _ _ _ _ _ _ _ _ _ _ _ _ _ _ _ _ _ _ _ _ _ HQ). symmetry. apply HLA'. }
      split. { apply (same_point_iff _ _ gg' gn Rg' Rn). symmetry. apply (bits_point_iff (bytes_bits (leftovers_to_bytes L')) (256 * 2 + 128)); [split; apply HLA'|exact (ch_gn _ _ _ _ _ _ _ _ _ _ _ _ _ _ _ _ _ _ _ _ _ _ _ HQ)]. }
      split; [exact EP|].
      destruct HQ as [_ _ _ _ _ _ Q1 Q2 Q3 Q4 _]. repeat (split; [assumption|]). assumption. }
    eapply hon_weaken.
    - apply (V_synthesize_with CL one w w_one self pchain b0 L' D (op_deferred old) B VQ IQ Eb EL ED).
      + unfold old_deferred_of. rewrite Ep. reflexivity.
      + exact HG.
      + unfold payload_bits_of, old_leftovers1_of, leftovers1_of. rewrite Ep, El. exact HBC.
      + exact Hk.
      + apply (encodes_bytes q vb FL); assumption.
      + exact OV.
      + exact HDA.
      + unfold payload_bits_of. rewrite Ep. exact HPay.
      + unfold old_leftovers1_of. rewrite Ep. exact (lat_len _ _ _ _ _ _ _ _ HLA).
      + intros bc Kc gK ol ds nl Hbc HK EB Hol Hds Hnl.
        assert (RK : rep K gK) by (unfold CurveTop.rep; rewrite <- EB; exact HKB).
        unfold old_leftovers1_of in Hol. rewrite Ep in Hol.
        eapply hon_weaken with (Q1 := fun _ => b0 = false -> checked CL D (claimed D pf) (bytes_bits (leftovers_to_bytes L)) (bytes_bits (leftovers_to_bytes L')) gK gr gso gsv gsc gtp gtn gsn ggo gc gn y x yn z packeds gmss us).
        2: { intros _ HC E gK' EB'. assert (gK' = gK) as -> by (apply (cl_inj _ _ _ _ _ CL); congruence). exact (HC E). }
        pose proof (V_verify_proof_with CL one w w_one HB1 HB2 self D (op_deferred old) forks Ef (md := md) pchain bc b0 Kc K gK ol ds nl
          (bytes_bits (leftovers_to_bytes L)) (bytes_bits (deferred_to_bytes D)) (bytes_bits (leftovers_to_bytes L')) gr gso gsv gsc gtp gtn gsn ggo gc gn
          y x yn z t t' mss packeds gmss us) as X.
        cbv zeta in X. rewrite EV in X. apply X; try assumption; [exact (lat_len _ _ _ _ _ _ _ _ HLA)|exact (lat_len _ _ _ _ _ _ _ _ HLA')|intros; eapply HPC; eassumption|].
        clear X. intros Em E. destruct (HAcc Em E) as (A1 & A2 & A3 & A4 & A5 & A6 & A7 & A8 & A9 & A10 & A11). fold pf in A1, A2, A4.
        apply (same_point_iff _ _ gs' gsn Rs' Rsn) in A2. apply (same_point_iff _ _ gg' gn Rg' Rn) in A4. subst gs' gg'.
        destruct (claims_group _ _ _ _ _ _ _ _ _ _ gK gr gsv gsc gtp gtn gsn ggo gc H5 RK Rr Rsv Rsc Rtp Rtn Rsn Rgo Rc) as (HL5 & HCG).
        constructor; try assumption; try (split; apply HLA); try (split; apply HLA').
        * rewrite <- A3. apply HLA'.
        * intros i c Hc. apply (lat_c _ _ _ _ _ _ _ _ HLA' i). rewrite A5. apply map_nth_error, Hc.
        * intros j [gv1 gv2] a bj Hgv Ha Hbj.
          assert (Hj : j < 5). { apply (Nat.lt_le_trans _ (length [d_b_x D; d_b_xy D; d_b_y_old D; d_b_y_cur D; d_b_y_new D])); [apply nth_error_Some; rewrite Hbj; discriminate|apply le_n]. }
          destruct (nth_error claims j) as [claim|] eqn:Ecl; [|apply nth_error_None in Ecl; lia].
          destruct (HCG j claim Ecl) as (gP & RP & Ngc & _).
          exact (proj1 (adds_up_group CL t _ mss packeds forks t' gmss us j claim a _ gn gP gv1 gv2 _ bj HSaid HM HU Hj Rn RP Ngc Hgv) (A1 j claim a bj Ecl Ha Hbj)).
      + intros Em E. unfold old_leftovers1_of. rewrite Ep. apply HCH. destruct (HAcc Em E) as (_ & _ & _ & _ & _ & _ & _ & _ & _ & A & _). exact A.
      + intros Em E. unfold old_leftovers1_of. rewrite Ep. apply HYO. destruct (HAcc Em E) as (_ & _ & _ & _ & _ & _ & A & _). exact A.
      + unfold payload_bits_of. rewrite Ep. exact HI.
    - cbv beta. intros _ (R1 & R2 & R3 & R4). split; [exact R1|]. unfold payload_bits_of in R2. rewrite Ep in R2. split; [exact R2|]. split; [|exact R4].
      intro E. destruct (R3 E) as (Q1 & Q2 & Q3). unfold old_leftovers1_of in Q2, Q3. rewrite Ep in Q2, Q3. apply HCH in Q2. apply HYO in Q3. apply HV; assumption.
  Qed.

  Lemma V_step {md} b0 old lb L' D forks K B y x yn z t t' mss packeds claims (IQ : Prop) :
    vc_base_case self = Some b0 -> vc_proof self = Some old -> vc_forkvalues self = Some forks -> vc_old_leftovers self = Some lb ->
    vc_new_leftovers self = Some L' -> vc_deferred self = Some D ->
    let L := op_oldproof1 old in let pf := op_proof old in
    good_generators (vc_params self) ->
    bits_commitment (vc_params self) (bytes_bits (op_payload old) ++ bytes_bits (leftovers_to_bytes L) ++ bytes_bits lb ++ bytes_bits (deferred_to_bytes (op_deferred old))) B ->
    CurveSpec.represents K B ->
    k <= 64 -> proof_of_points k pf L -> length (challenges_sq_packed_new L) = k -> Forall small (y_new L :: challenges_sq_packed_new L) ->
    valid (s_new_commitment L') -> valid (g_new L') -> length (challenges_sq_packed_new L') = k -> Forall small (y_new L' :: challenges_sq_packed_new L') ->
    length (d_challenges_sq_packed_old D) = k -> length (d_challenges_sq_packed_new D) = k -> Forall small (half_parts D) ->
    length (d_challenges_sq_packed_old (op_deferred old)) = k -> length (d_challenges_sq_packed_new (op_deferred old)) = k ->
    Forall small (half_parts (op_deferred old)) ->
    conversation K (claimed D pf) (d_ky_opening D) (d_gx_old_opening D) y x yn z t ->
    five_claims K (claimed D pf) L (d_ky_opening D) (d_gx_old_opening D) y x yn (get_challenge_scalar z) claims ->
    said 5 t (mo_rounds (pf_inner_product pf)) mss packeds forks t' ->
    (md = true -> deferred_verify (op_deferred old) k = Some true) ->
    (md = true -> b0 = true -> agree (base_payload (vc_inner self)) (bytes_bits (op_payload old))) ->
    (md = true -> b0 = false -> accepted old L' D y x yn packeds claims) ->
    (forall ob nb, BH ob (bytes_bits (op_payload old)) -> BH nb (bytes_bits (vc_new_payload self)) -> hon w md (inner_synthesize (vc_inner self) one ob nb) (fun _ => IQ)) ->
    hon w md (vc_synthesize one self) (fun _ =>
      (md = false -> exists s t, sign s /\ sign t /\ deferred_verify (with_signs s t (op_deferred old)) k = Some true) /\
      (b0 = true -> agree (base_payload (vc_inner self)) (bytes_bits (op_payload old))) /\
      (b0 = false -> accepted old L' D y x yn packeds claims) /\ IQ).
  Proof.
    intros Eb Ep Ef El EL ED L pf HG HBC HKB Hk HPP. intros. change (vc_synthesize one self) with (vc_synthesize_with one (endo_chain one) self).
    pose proof HPP as (HVs & _). assert (VS : valid (s_new_commitment L)) by (rewrite Forall_forall in HVs; apply HVs; cbn [In]; auto 10).
    destruct VS as (As & HAs). destruct (rep_ex CL _ _ HAs) as (gso & -> & Rso).
    eapply (V_step_with (endo_chain one) (s_new_commitment L) gso); try eassumption.
    intros gr gso' gsc gtp gtn gsn ggo zc Pr Ps _ Rso' _ _ _ _ _ Hz Hr HPs. assert (gso' = gso) as -> by exact (CurveTop.rep_fun CL _ _ _ Rso' Rso).
    apply (H_chain CL one w w_one HB1 HB2 zc z _ [gso; gsc; gtp; gtn; gsn; ggo] Hz) with (g := gr); assumption.
  Qed.

  Lemma rep_every g : exists K, rep K g.
  Proof.
    destruct (cl_cyclic _ _ _ _ _ CL g) as (n & Hn & ->). destruct (ol_surj _ _ _ SO n Hn) as (s & <-).
    exists (c_mul c_one s). apply (rep_mul CL), (cl_rep_one _ _ _ _ _ CL).
  Qed.
  Lemma conversation_ex (K : C) pf ky gx : exists y x yn z t, conversation K pf ky gx y x yn z t /\ OpeningP.live t.
  Proof.
    destruct (live_after CL _ (live_appended CL _ [Point K; Point (pf_r_commitment pf)] live_new)) as (y & t1 & _ & A1 & V1).
    destruct (live_after CL _ (live_appended CL _ [Point (pf_s_cur_commitment pf); Point (pf_t_positive_commitment pf); Point (pf_t_negative_commitment pf)] V1)) as (x & t2 & _ & A2 & V2).
    destruct (live_after CL _ (live_appended CL _ [Point (pf_c_commitment pf)] V2)) as (yn & t3 & _ & A3 & V3).
    destruct (live_after CL _ (live_appended CL _ [Point (pf_s_new_commitment pf); Scal ky; Scal (pf_rx_opening pf);
      Scal (pf_rxy_opening pf); Scal (pf_sx_old_opening pf); Scal (pf_sx_cur_opening pf);
      Scal (pf_tx_positive_opening pf); Scal (pf_tx_negative_opening pf); Scal (pf_sx_new_opening pf); Scal gx] V3)) as (z & t & _ & A4 & V4).
    exists y, x, yn, z, t. split; [|exact V4]. exists t1, t2, t3. auto.
  Qed.
  Lemma sent_ex m (round : InnerProductRound C) : m <= length (ip_L round) -> m <= length (ip_R round) -> m <= length (ip_l round) -> m <= length (ip_r round) -> exists ms, sent m round ms.
  Proof.
    destruct round as [Ls Rs ls rs]. cbn [ip_L ip_R ip_l ip_r]. revert Ls Rs ls rs. unfold sent. cbn [ip_L ip_R ip_l ip_r].
    induction m as [|m IH]; intros Ls Rs ls rs H1 H2 H3 H4; [exists []; repeat split; reflexivity|].
    destruct Ls as [|P Ls]; [cbn in H1; lia|]. destruct Rs as [|R Rs]; [cbn in H2; lia|]. destruct ls as [|l0 ls]; [cbn in H3; lia|]. destruct rs as [|r0 rs]; [cbn in H4; lia|].
    destruct (IH Ls Rs ls rs) as (ms & X0 & X1 & X2 & X3 & X4); [cbn [length] in *; lia..|]. exists ((P, R, l0, r0) :: ms). cbn [firstn map length]. repeat split; congruence.
  Qed.
  Lemma said_ex : forall rounds fs t, OpeningP.live t -> Forall (fun n => n < 256) fs -> length fs = length rounds ->
    Forall (fun round : InnerProductRound C => 5 <= length (ip_L round) /\ 5 <= length (ip_R round) /\ 5 <= length (ip_l round) /\ 5 <= length (ip_r round)) rounds ->
    exists mss packeds t', said (C := C) 5 t rounds mss packeds fs t'.
  Proof.
    induction rounds as [|round rounds IH]; intros [|n fs] t Ht Hf HL HR; try discriminate HL; [exists [], [], t; constructor|].
    inversion Hf as [|? ? Hn Hf']; subst. inversion HR as [|? ? (R1 & R2 & R3 & R4) HR']; subst.
    destruct (sent_ex 5 round R1 R2 R3 R4) as (ms & Hms).
    assert (H1 : OpeningP.live (absorb (appended t (spoken ms)) (number n))) by (apply (live_absorb FL), (live_appended CL), Ht).
    destruct (live_after CL _ H1) as (c & t1 & _ & Hc & Ht1). destruct (IH fs t1 Ht1 Hf') as (mss & packeds & t' & H); [cbn [length] in HL; congruence|exact HR'|].
    exists (ms :: mss), (c :: packeds), t'. econstructor; eassumption.
  Qed.
  Lemma combination_ex ss (Ps : list C) : length ss = length Ps -> Forall valid Ps -> exists D A, CurveSpec.represents D A /\ combination ss Ps A.
  Proof.
    intros HL HV. destruct (valid_reps CL _ HV) as (gs & HG). destruct (rep_every (MultiexpP.zsum CL (map vs ss) gs)) as (D & RD).
    exists D, (pt (MultiexpP.zsum CL (map vs ss) gs)). split; [exact RD|]. apply (combination_iff CL _ _ gs); [exact HG|exact HL|reflexivity].
  Qed.
  Lemma claims_ex K (pf : Proof_ C) L ky gx y x yn z :
    Forall valid [pf_r_commitment pf; pf_s_cur_commitment pf; pf_t_positive_commitment pf; pf_t_negative_commitment pf;
                  pf_c_commitment pf; pf_s_new_commitment pf; s_new_commitment L; g_new L] -> valid K ->
    exists claims, five_claims K pf L ky gx y x yn z claims.
  Proof.
    intros HV VK. inversion HV as [|? ? V1 HV1]; subst. inversion HV1 as [|? ? V2 HV2]; subst. inversion HV2 as [|? ? V3 HV3]; subst. inversion HV3 as [|? ? V4 HV4]; subst.
    inversion HV4 as [|? ? V5 HV5]; subst. inversion HV5 as [|? ? V6 HV6]; subst. inversion HV6 as [|? ? V7 HV7]; subst. inversion HV7 as [|? ? V8 _]; subst.
    destruct (combination_ex (falling z) [pf_r_commitment pf; s_new_commitment L; pf_s_cur_commitment pf; pf_t_positive_commitment pf; pf_t_negative_commitment pf; pf_s_new_commitment pf; g_new L]) as (D & A & HD & HA).
    { reflexivity. } { repeat (constructor; [assumption|]). constructor. }
    destruct (combination_ex [fone; z] [pf_c_commitment pf; K]) as (E & B & HE & HB). { reflexivity. } { repeat (constructor; [assumption|]). constructor. }
    eexists [mkOpening D _ _ false; mkOpening (pf_r_commitment pf) _ _ false; mkOpening (pf_c_commitment pf) _ _ false; mkOpening E _ _ false; mkOpening (pf_c_commitment pf) _ _ false].
    exists D, E, A, B. split; [exact HD|]. split; [exact HE|]. split; [exact HA|]. split; [exact HB|]. split; [reflexivity|]. split; reflexivity.
  Qed.

  Lemma claimed_same D (pf : Proof_ C) : d_tx_positive_opening D = pf_tx_positive_opening pf -> d_tx_negative_opening D = pf_tx_negative_opening pf ->
    d_sx_cur_opening D = pf_sx_cur_opening pf -> d_rx_opening D = pf_rx_opening pf -> d_rxy_opening D = pf_rxy_opening pf -> claimed D pf = pf.
  Proof. destruct pf. unfold claimed. cbn. congruence. Qed.
  (** proofs that verify exactly are accepted *)
  Theorem exact_accepts k0 (K : C) pf L L' D forks : well_formed_proof k0 pf L -> verified_exactly K pf L L' D forks -> circuit_accepts K pf L L' D forks.
  Proof.
    intros (HVs & HW & _ & _) (gx & y & x & yn & z & t & t' & claims & HF0 & Hconv & H5 & HR & HCl & Ls & Ly & Lg & Dx & Dyo & Dyc & Dyn & Dtp & Dtn & Dsx & Drx & Drxy & Dold & Dgx & Dnew & B1 & B2 & B3 & B4 & B5).
    destruct (rounds_said _ _ _ _ _ _ HR) as (mss & HSaid).
    exists y, x, yn, z, t, t', mss, claims. cbv zeta. rewrite (claimed_same D pf Dtp Dtn Dsx Drx Drxy), Dgx.
    split; [exact Hconv|]. split; [exact H5|]. split; [exact HSaid|]. split.
    { intros j claim a b Ecl Ha Hb. apply (holds_adds_up CL); [exact (HCl j claim a Ecl Ha)|].
      destruct H5 as (D0 & E0 & A0 & B0 & _ & _ & _ & _ & _ & _ & HP). pose proof (map_nth_error po_point _ _ Ecl) as Npt. rewrite HP in Npt.
      destruct j as [|[|[|[|[|j]]]]]; cbn [nth_error] in Hb, Npt; try discriminate Npt; try (destruct j; discriminate Npt); injection Hb as <-; injection Npt as <-; assumption. }
    assert (VS : valid (pf_s_new_commitment pf)) by (rewrite Forall_forall in HVs; apply HVs; cbn [In]; auto 10). destruct VS as (A & V6).
    destruct HW as (_ & _ & _ & (Ag & HVg) & _).
    split; [exists A; rewrite Ls; split; exact V6|]. split; [exact Ly|]. split; [exists Ag; rewrite Lg; split; exact HVg|]. auto 10.
  Qed.

  Theorem step_complete old lb L' D forks K B :
    vc_base_case self = Some false -> vc_proof self = Some old -> vc_forkvalues self = Some forks -> vc_old_leftovers self = Some lb ->
    vc_new_leftovers self = Some L' -> vc_deferred self = Some D ->
    let L := op_oldproof1 old in
    good_generators (vc_params self) ->
    bits_commitment (vc_params self) (bytes_bits (op_payload old) ++ bytes_bits (leftovers_to_bytes L) ++ bytes_bits lb ++ bytes_bits (deferred_to_bytes (op_deferred old))) B ->
    CurveSpec.represents K B ->
    k <= 64 -> proof_of_points k (op_proof old) L -> length (challenges_sq_packed_new L) = k -> Forall small (y_new L :: challenges_sq_packed_new L) ->
    circuit_accepts K (op_proof old) L L' D forks ->
    length (d_challenges_sq_packed_old (op_deferred old)) = k -> length (d_challenges_sq_packed_new (op_deferred old)) = k ->
    Forall small (half_parts (op_deferred old)) -> deferred_verify (op_deferred old) k = Some true ->
    (forall ob nb, BH ob (bytes_bits (op_payload old)) -> BH nb (bytes_bits (vc_new_payload self)) -> complete w (inner_synthesize (vc_inner self) one ob nb) (fun _ => True)) ->
    complete w (vc_synthesize one self) (fun _ => True).
  Proof.
    intros Eb Ep Ef El EL ED L HG HBC HKB Hk HPP LL HSm (y & x & yn & z & t & t' & mss & claims & Hconv & H5 & HSaid & HCl & Hs & Ly & Hg & Dx & Dyo & Dyc & Dyn & Dold & Dnew) LO1 LO2 OSm OV HI.
    pose proof (said_small _ _ _ _ _ _ _ HSaid) as HSp. pose proof (said_length _ _ _ _ _ _ _ HSaid) as HLp.
    pose proof HPP as (_ & _ & Hkr & _). rewrite Hkr in HLp.
    pose proof Hconv as (t1 & t2 & t3 & C1 & C2 & C3 & C4). apply challenge_small in C1, C2, C3. inversion HSm as [|? ? S1 S2]; subst.
    assert (X : hon w true (vc_synthesize one self) (fun _ => (true = false -> exists s t, sign s /\ sign t /\ deferred_verify (with_signs s t (op_deferred old)) k = Some true) /\
      (false = true -> agree (base_payload (vc_inner self)) (bytes_bits (op_payload old))) /\
      (false = false -> accepted old L' D (d_y_cur D) (d_x D) (y_new L') (challenges_sq_packed_new L') claims) /\ True)).
    { apply (V_step false old lb L' D forks K B _ _ _ z t t' mss _ claims True Eb Ep Ef El EL ED HG HBC HKB Hk HPP LL HSm); try assumption; try discriminate.
      - destruct Hs as (A & HA & _). exists A. exact HA.
      - destruct Hg as (A & HA & _). exists A. exact HA.
      - constructor; assumption.
      - congruence.
      - congruence.
      - unfold half_parts. rewrite Dold, Dnew, Dyo, Dyn. repeat (constructor; [assumption|]). apply Forall_app. split; assumption.
      - intros _. exact OV.
      - intros _ _. unfold accepted. cbv zeta. repeat (split; [assumption || reflexivity|]). assumption. }
    cbn [hon] in X. intros tr o HE HS. destruct (X tr o HE HS) as (a & E & HCs & _). exists a. auto.
  Qed.
  Theorem step_only_if b0 old lb L' D forks K B (IQ : Prop) :
    vc_base_case self = Some b0 -> vc_proof self = Some old -> vc_forkvalues self = Some forks -> vc_old_leftovers self = Some lb ->
    vc_new_leftovers self = Some L' -> vc_deferred self = Some D ->
    let L := op_oldproof1 old in
    good_generators (vc_params self) ->
    bits_commitment (vc_params self) (bytes_bits (op_payload old) ++ bytes_bits (leftovers_to_bytes L) ++ bytes_bits lb ++ bytes_bits (deferred_to_bytes (op_deferred old))) B ->
    CurveSpec.represents K B ->
    k <= 64 -> proof_of_points k (op_proof old) L -> length (challenges_sq_packed_new L) = k -> Forall small (y_new L :: challenges_sq_packed_new L) ->
    valid (s_new_commitment L') -> valid (g_new L') -> length (challenges_sq_packed_new L') = k -> Forall small (y_new L' :: challenges_sq_packed_new L') ->
    length (d_challenges_sq_packed_old D) = k -> length (d_challenges_sq_packed_new D) = k -> Forall small (half_parts D) ->
    length (d_challenges_sq_packed_old (op_deferred old)) = k -> length (d_challenges_sq_packed_new (op_deferred old)) = k ->
    Forall small (half_parts (op_deferred old)) ->
    length forks = k -> Forall (fun n => n < 256) forks ->
    (forall ob nb, BH ob (bytes_bits (op_payload old)) -> BH nb (bytes_bits (vc_new_payload self)) -> satisfied_only_if w (inner_synthesize (vc_inner self) one ob nb) (fun _ => IQ)) ->
    satisfied_only_if w (vc_synthesize one self) (fun _ =>
      (exists s t, sign s /\ sign t /\ deferred_verify (with_signs s t (op_deferred old)) k = Some true) /\
      (b0 = true -> agree (base_payload (vc_inner self)) (bytes_bits (op_payload old))) /\
      (b0 = false -> circuit_accepts K (op_proof old) L L' D forks) /\ IQ).
  Proof.
    intros Eb Ep Ef El EL ED L HG HBC HKB Hk HPP LL HSm VS' VG' LL' HSm' LD1 LD2 HDsm LO1 LO2 OSm Lf Hf HI.
    pose proof HPP as (HVs & _ & Hkr & _ & _ & Hwr).
    destruct (conversation_ex K (claimed D (op_proof old)) (d_ky_opening D) (d_gx_old_opening D)) as (y & x & yn & z & t & Hconv & Ht).
    destruct (said_ex (mo_rounds (pf_inner_product (op_proof old))) forks t Ht Hf) as (mss & packeds & t' & HSaid).
    { congruence. } { eapply Forall_impl; [|exact Hwr]. cbv beta. intros round (X1 & X2 & X3 & X4 & _). auto. }
    destruct (claims_ex K (claimed D (op_proof old)) L (d_ky_opening D) (d_gx_old_opening D) y x yn (get_challenge_scalar z) HVs) as (claims & H5). { exists B. exact HKB. }
    pose proof (V_step (md := false) b0 old lb L' D forks K B y x yn z t t' mss packeds claims IQ Eb Ep Ef El EL ED HG HBC HKB Hk HPP LL HSm
      VS' VG' LL' HSm' LD1 LD2 HDsm LO1 LO2 OSm Hconv H5 HSaid ltac:(discriminate) ltac:(discriminate) ltac:(discriminate) HI) as X.
    intros tr a HE HS HC. destruct (X tr a HE HS HC) as (X1 & X2 & X3 & X4). split; [exact (X1 eq_refl)|]. split; [exact X2|]. split; [|exact X4].
    intro E. destruct (X3 E) as (Q1 & Q2 & Q3 & Q4 & Q5 & Q6 & Q7 & Q8 & Q9 & Q10 & Q11). subst packeds.
    exists y, x, yn, z, t, t', mss, claims. cbv zeta. auto 15.
  Qed.

  Lemma Forall_repeat {A} (P : A -> Prop) x n : P x -> Forall P (repeat x n).
  Proof. intro H. induction n; constructor; assumption. Qed.

  Theorem base_complete lb L' D forks (OD : Deferred (Base C)) B :
    vc_base_case self = Some true -> vc_proof self = None -> vc_forkvalues self = Some forks -> vc_old_leftovers self = Some lb ->
    vc_new_leftovers self = Some L' -> vc_deferred self = Some D -> deferred_dummy k = Some OD ->
    good_generators (vc_params self) ->
    bits_commitment (vc_params self) (base_payload (vc_inner self) ++ repeat false (leftovers_bits k) ++ bytes_bits lb ++ bytes_bits (deferred_to_bytes OD)) B ->
    k <= 64 -> length forks = k -> Forall (fun n => n < 256) forks -> length (challenges_sq_packed_new L') = k ->
    length (d_challenges_sq_packed_old D) = k -> length (d_challenges_sq_packed_new D) = k -> Forall small (half_parts D) ->
    deferred_verify OD k = Some true ->
    (forall ob nb, BH ob (base_payload (vc_inner self)) -> BH nb (bytes_bits (vc_new_payload self)) -> complete w (inner_synthesize (vc_inner self) one ob nb) (fun _ => True)) ->
    complete w (vc_synthesize one self) (fun _ => True).
  Proof.
    intros Eb Ep Ef El EL ED EOD HG HBC Hk Lf Hf LL' LD1 LD2 SD OV HI.
    destruct (dummy_small FL k OD EOD) as (LO1 & LO2 & OSm).
    assert (HDA : deferred_at r vs k D (bytes_bits (deferred_to_bytes D))).
    { apply deferred_slices. apply (encodes_bytes r vs SL k D); assumption. }
    assert (X : hon w true (vc_synthesize one self) (fun _ => (true = false -> exists s t, sign s /\ sign t /\ deferred_verify (with_signs s t OD) k = Some true) /\
      (true = true -> agree (base_payload (vc_inner self)) (payload_bits_of self)) /\
      (true = false -> True /\ firstn (128 * k) (skipn (256 * 8) (bytes_bits (deferred_to_bytes D))) = skipn (256 * 4 + 128) (old_leftovers1_of self) /\
        firstn 128 (skipn (128 * 1) (bytes_bits (deferred_to_bytes D))) = firstn 128 (skipn (256 * 2) (old_leftovers1_of self))) /\ True)).
    2: { cbn [hon] in X. intros tr o HE HS. destruct (X tr o HE HS) as (a & E & HCs & _). exists a. auto. }
    apply (V_synthesize_with CL one w w_one self (endo_chain one) true L' D OD B True True Eb EL ED).
    - unfold old_deferred_of. rewrite Ep. exact EOD.
    - exact HG.
    - unfold payload_bits_of, old_leftovers1_of, leftovers1_of. rewrite Ep, El. exact HBC.
    - exact Hk.
    - apply (encodes_bytes q vb FL); assumption.
    - intros _. exact OV.
    - exact HDA.
    - intros _ _. unfold payload_bits_of. rewrite Ep. apply agree_refl.
    - unfold old_leftovers1_of. rewrite Ep. apply repeat_length.
    - intros bc Kc gK ol ds nl Hbc HK EB Hol Hds Hnl. destruct (rep_every gK) as (K & RK).
      unfold old_leftovers1_of in Hol. rewrite Ep in Hol.
      assert (EV : virt self D OD = zero_old k D OD) by (unfold virt; rewrite Ep; reflexivity).
      set (pf := op_proof (zero_old k D OD)).
      destruct (conversation_ex K pf (d_ky_opening D) (d_gx_old_opening D)) as (y & x & yn & z & t & Hconv & Ht).
      destruct (said_ex (repeat zero_round5 k) forks t Ht Hf) as (mss & packeds & t' & HSaid). { rewrite repeat_length. exact Lf. } { apply Forall_repeat. cbn. lia. }
      destruct (said_group _ _ _ _ _ _ _ HSaid) as (gmss & HM).
      { apply Forall_repeat. split; apply Forall_repeat; exact (rep_valid CL _ _ (rep0 CL)). }
      destruct (scaled_ex packeds) as (us & HU).
      eapply hon_weaken; [|intros a0 Ha0 E0; exact I].
      pose proof (V_verify_proof_with CL one w w_one HB1 HB2 self D OD forks Ef (md := true) (endo_chain one) bc true Kc K gK ol ds nl
        (repeat false (leftovers_bits k)) (bytes_bits (deferred_to_bytes D)) (bytes_bits (leftovers_to_bytes L')) g0 g0 g0 g0 g0 g0 g0 g0 g0 g0
        y x yn z t t' mss packeds gmss us) as X.
      cbv zeta in X. rewrite EV in X. apply X; try exact (rep0 CL); try assumption; try discriminate.
      + rewrite repeat_length. reflexivity.
      + unfold bytes_bits. rewrite bytes_bits_length, (leftovers_len CL), LL'. lia.
      + apply repeat_length.
      + apply le_n.
      + intros zc Pr Ps Hz Hr HPs. apply (H_chain CL one w w_one HB1 HB2 zc z _ [g0; g0; g0; g0; g0; g0] Hz) with (g := g0); assumption.
    - discriminate.
    - discriminate.
    - unfold payload_bits_of. rewrite Ep. exact HI.
  Qed.
End Step.
