(** The inner product argument in the recursive verification circuit. *)
From Coq Require Import String List Bool Arith ZArith Lia Ring Field.
From Verif Require Import Lib.AbGroup Model.FieldTrait Model.Circuits Model.Num Model.Boolean Model.Curve Model.Ecc Model.Threads Model.Params Model.Util
  Model.Rescue Model.RescueGadget Model.Opening Model.Proofs Model.Recursion
  Spec.FieldLaws Spec.CircuitSpec Spec.NumSpec Spec.BoolSpec Spec.UtilSpec Spec.CurveSpec Spec.CurveLaws Spec.EccSpec Spec.ProofSpec Spec.VerifySpec Spec.RecursionSpec Spec.RecursiveCircuitSpec
  Proofs.FieldGen Proofs.ZtoF Proofs.CircuitP Proofs.LcP Proofs.NumP Proofs.BoolP Proofs.UnpackP Proofs.ChallengeP Proofs.CurveTop Proofs.EccP Proofs.EccAddP Proofs.EccMulP
  Proofs.RescueGadgetP Proofs.RecursionP Proofs.ModeP Proofs.RecursionDeferredP Proofs.TranscriptGadgetP Proofs.EncodeP Proofs.RecursionGlue Proofs.VerifyP Proofs.SliceP Proofs.HonP Proofs.VerifierGadgetP.
Import ListNotations.
Open Scope nat_scope. Open Scope list_scope.

Lemma rounds_said {C : Curve} m t rounds packeds forks t' : @rounds_run C m t rounds packeds forks t' -> exists mss, said m t rounds mss packeds forks t'.
Proof.
  induction 1 as [t|t round ms n packed t1 rounds packeds forks t' H1 H2 H3 H4 H5 H6 (mss & IH)]; [exists []; constructor|].
  exists (ms :: mss). econstructor; eassumption.
Qed.

(** what stands for the old proof in the base case *)
Definition zero_round5 {C : Curve} : InnerProductRound C := mkRound (repeat c_zero 5) (repeat c_zero 5) (repeat fzero 5) (repeat fzero 5).
Definition zero_old {C : Curve} (k : nat) (D : Deferred (Scalar C)) (OD : Deferred (Base C)) : OldProof C :=
  mkOld (mkProof c_zero c_zero c_zero c_zero c_zero c_zero
           (d_rx_opening D) (d_rxy_opening D) fzero (d_sx_cur_opening D) (d_tx_positive_opening D) (d_tx_negative_opening D) fzero
           (mkMulti (repeat zero_round5 k) (repeat fzero 5) c_zero))
        (mkLeft c_zero fzero c_zero []) OD [].

Section Rounds.
  Context {C : Curve} {q vb r vs} (CL : CurveLaws C q vb r vs) (one : Var).
  Notation F := (Base C).
  Let FL : FieldLaws F q vb := cl_base _ _ _ _ _ CL.
  Let OL : OpsLaws F q vb := fl_ops _ _ _ FL.
  Let SL : FieldLaws (Scalar C) r vs := cl_scalar _ _ _ _ _ CL.
  Let SO : OpsLaws (Scalar C) r vs := fl_ops _ _ _ SL.
  Add Field Ff : (ffield OL).
  Add Field Fs : (ffield SO).
  Variable w : assignment F.
  Hypothesis w_one : w one = fone.
  Hypothesis HB1 : f_BETA = BETA_BASE C.
  Hypothesis HB2 : f_BETA = BETA_SCALAR C.
  Notation G := (cl_group _ _ _ _ _ CL).
  Notation pt := (cl_point _ _ _ _ _ CL).
  Notation gen := (cl_gen _ _ _ _ _ CL).
  Notation rep := (CurveTop.rep CL).
  Notation zs := (EccMulP.zs CL).
  Notation PH := (PH CL w).
  Notation BH := (Forall2 (bit_has w)).
  Notation T := (TR w true).
  Notation CH := (CH (C := C) (vs := vs) w).
  Implicit Types (g h : G).

  Lemma number_u128 n : n < 256 -> f_from_u128 (Z.of_nat n) = number n :> F.
  Proof.
    intro H. apply (ol_inj _ _ _ OL). rewrite (fl_from_u128 _ _ _ FL).
    2: { split; [lia|]. apply Z.lt_trans with 256%Z; [lia|reflexivity]. }
    destruct (fl_size _ _ _ FL) as [Hs _]. assert (Hq : (256 < q)%Z) by (apply Z.lt_trans with (2 ^ 254)%Z; [reflexivity|exact Hs]). clear Hs.
    induction n as [|n IH]; [symmetry; apply (ol_zero _ _ _ OL)|].
    cbn [number]. rewrite (ol_add _ _ _ OL), <- IH, (ol_one _ _ _ OL) by lia. rewrite Z.mod_small; lia.
  Qed.

  Variable self : VerificationCircuit C.
  Variables (D : Deferred (Scalar C)) (OD : Deferred F).
  Notation k := (p_k (vc_params self)).
  Definition virt : OldProof C := match vc_proof self with Some p => p | None => zero_old k D OD end.

  Lemma H_witness_of s (f : OldProof C -> C) g : rep (f (zero_old k D OD)) g0 -> rep (f virt) g ->
    complete w (witness_of one self s f) (fun R => PH R g).
  Proof.
    intros H0 H. unfold witness_of. apply complete_namespace, (H_witness CL one w w_one). unfold virt in H. destruct (vc_proof self); [exact H|].
    rewrite (rep_fun CL _ _ _ H H0). apply (rep0 CL).
  Qed.
  Lemma H_witness_at {B} s (f : OldProof C -> option C) p g p0 (kk : _ -> CS F B) Q : f (zero_old k D OD) = Some p0 -> rep p0 g0 -> f virt = Some p -> rep p g ->
    (forall P, PH P g -> complete w (kk P) Q) -> complete w (bind (witness_at one self s f) kk) Q.
  Proof.
    intros E0 H0 E H HK. eapply complete_bind with (Q1 := fun P => PH P g); [|exact HK].
    unfold witness_at. unfold virt in E. destruct (vc_proof self).
    - rewrite E. change (complete w (namespace s (cp_witness one (Ok p))) (fun P => PH P g)). apply complete_namespace, (H_witness CL one w w_one), H.
    - change (complete w (namespace s (cp_witness one (Ok c_zero))) (fun P => PH P g)). apply complete_namespace, (H_witness CL one w w_one).
      assert (p = p0) by congruence. subst p0. rewrite (rep_fun CL _ _ _ H H0). apply (rep0 CL).
  Qed.
  Lemma rep_scalar (x : Scalar C) : rep (c_mul c_one x) (zs x gen).
  Proof. apply (rep_mul CL), (cl_rep_one _ _ _ _ _ CL). Qed.
  Lemma rep_scalar0 : rep (c_mul c_one fzero) g0.
  Proof. rewrite <- (zs_zero CL gen). apply rep_scalar. Qed.
  Lemma H_witness_commit s (f : OldProof C -> C) i g T0 t : rep (f (zero_old k D OD)) g0 -> f virt = item_point i -> rep (item_point i) g ->
    T T0 t -> complete w (witness_commit one self s f T0) (fun '(P, T1) => PH P g /\ T T1 (appended t [i])).
  Proof.
    intros H0 E Hi HT.
    unfold witness_commit. eapply complete_bind; [apply (H_witness_of s f g H0); rewrite E; exact Hi|]. cbv beta. intros P HP.
    eapply (H_nsb w); [apply (H_commit CL one w w_one _ _ _ i _ HT HP Hi)|]. cbv beta. intros T1 HT1. apply complete_ret. split; assumption.
  Qed.

  (** *** a round *)
  Notation msg := (C * C * Scalar C * Scalar C)%type.
  Notation gmsg := (G * G * G * G)%type.
  Definition mrep (m : msg) (gm : gmsg) : Prop :=
    let '(L, R, l, rr) := m in let '(gL, gR, gl, gr) := gm in rep L gL /\ rep R gR /\ gl = zs l gen /\ gr = zs rr gen.
  Definition MPH (m : CurvePoint C * CurvePoint C * CurvePoint C * CurvePoint C) (gm : gmsg) : Prop :=
    let '(L, R, l, rr) := m in let '(gL, gR, gl, gr) := gm in PH L gL /\ PH R gR /\ PH l gl /\ PH rr gr.
  Definition PV (pv : CurvePoint C * CurvePoint C) (gv : G * G) : Prop := PH (fst pv) (fst gv) /\ PH (snd pv) (snd gv).
  Definition gstep (u ui : Scalar C) (gv : G * G) (gm : gmsg) : G * G :=
    let '(L, R, l, rr) := gm in let '(p, v) := gv in (gp (gp p (zs u L)) (zs ui R), gp (gp v (zs u l)) (zs ui rr)).

  Lemma H_message i round ms j m gm T0 t {B} (kk : _ -> CS F B) Q :
    nth_error (mo_rounds (pf_inner_product (op_proof virt))) i = Some round -> i < k -> sent 5 round ms -> j < 5 ->
    nth_error ms j = Some m -> mrep m gm -> T T0 t ->
    (forall M T1, MPH M gm -> T T1 (appended t (spoken [m])) -> complete w (kk (M, T1)) Q) ->
    complete w (bind (ip_message one self i T0 j) (fun '(L, R, l, rr, T1) => kk (L, R, l, rr, T1))) Q.
  Proof.
    intros Er Hi (HL & S1 & S2 & S3 & S4) Hj Em Hm HT HK. destruct m as [[[L R] l] rr], gm as [[[gL gR] gl] gr]. destruct Hm as (R1 & R2 & -> & ->).
    assert (N : forall {A} (sel : InnerProductRound C -> list A) (f : msg -> A), firstn 5 (sel round) = map f ms -> nth_error (sel round) j = Some (f (L, R, l, rr))).
    { intros A sel f E. rewrite <- (nth_firstn_lt _ 5 j Hj), E. apply map_nth_error, Em. }
    pose proof (N _ ip_L _ S1) as N1. pose proof (N _ ip_R _ S2) as N2. pose proof (N _ ip_l _ S3) as N3. pose proof (N _ ip_r _ S4) as N4. clear N.
    cbv beta iota in N1, N2, N3, N4.
    assert (Z : nth_error (mo_rounds (pf_inner_product (op_proof (zero_old k D OD)))) i = Some zero_round5).
    { cbn [zero_old op_proof pf_inner_product mo_rounds]. apply nth_error_repeat. exact Hi. }
    assert (ZR : forall {A} (x : A), nth_error (repeat x 5) j = Some x) by (intros; apply nth_error_repeat, Hj).
    eapply complete_bind with (Q1 := fun '(P1, P2, P3, P4, T1) => MPH (P1, P2, P3, P4) (gL, gR, zs l gen, zs rr gen) /\ T T1 (appended t (spoken [(L, R, l, rr)]))).
    2: { intros [[[[P1 P2] P3] P4] T1] [H1 H2]. apply HK; assumption. }
    unfold ip_message. cbv zeta.
    eapply (H_witness_at _ _ L gL c_zero); [rewrite Z; cbn [obind zero_round5 ip_L]; apply ZR|apply (rep0 CL)|rewrite Er; exact N1|exact R1|]. intros P1 HP1.
    eapply (H_witness_at _ _ R gR c_zero); [rewrite Z; cbn [obind zero_round5 ip_R]; apply ZR|apply (rep0 CL)|rewrite Er; exact N2|exact R2|]. intros P2 HP2.
    eapply (H_witness_at _ _ (c_mul c_one l) (zs l gen) (c_mul c_one fzero)); [rewrite Z; cbn [obind zero_round5 ip_l]; rewrite ZR; reflexivity|apply rep_scalar0|rewrite Er; cbn [obind]; rewrite N3; reflexivity|apply rep_scalar|]. intros P3 HP3.
    eapply (H_witness_at _ _ (c_mul c_one rr) (zs rr gen) (c_mul c_one fzero)); [rewrite Z; cbn [obind zero_round5 ip_r]; rewrite ZR; reflexivity|apply rep_scalar0|rewrite Er; cbn [obind]; rewrite N4; reflexivity|apply rep_scalar|]. intros P4 HP4.
    eapply (H_nsb w); [apply (H_commit CL one w w_one _ _ _ (Point L) _ HT HP1 R1)|]. cbv beta. intros T1 HT1.
    eapply (H_nsb w); [apply (H_commit CL one w w_one _ _ _ (Point R) _ HT1 HP2 R2)|]. cbv beta. intros T2 HT2.
    eapply (H_nsb w); [apply (H_commit CL one w w_one _ _ _ (Scal l) _ HT2 HP3 (rep_scalar l))|]. cbv beta. intros T3 HT3.
    eapply (H_nsb w); [apply (H_commit CL one w w_one _ _ _ (Scal rr) _ HT3 HP4 (rep_scalar rr))|]. cbv beta. intros T4 HT4.
    apply complete_ret. split; [cbn; auto|]. cbn [spoken flat_map]. rewrite app_nil_r.
    rewrite (append_cons (C := C) t), (append_cons (C := C) _ (Point R)), (append_cons (C := C) _ (Scal l)). exact HT4.
  Qed.
  Lemma spoken_app (a b : list msg) : spoken (a ++ b) = spoken a ++ spoken b.
  Proof. apply flat_map_app. Qed.
  Lemma H_messages i round ms gms : nth_error (mo_rounds (pf_inner_product (op_proof virt))) i = Some round -> i < k -> sent 5 round ms -> Forall2 mrep ms gms ->
    forall T0 t, T T0 t ->
    complete w (foldM (fun '(ms, t) j => bind (ip_message one self i t j) (fun '(L, R, l, rr, t) => ret (ms ++ [(L, R, l, rr)], t))) (seq 0 5) ([], T0))
      (fun '(Ms, T1) => Forall2 MPH Ms gms /\ T T1 (appended t (spoken ms))).
  Proof.
    intros Er Hi HS HF T0 t HT. pose proof (proj1 HS) as HL.
    pose proof (UnpackP.Forall2_length _ _ _ HF) as HLg. rewrite HL in HLg.
    eapply complete_weaken.
    - apply (complete_foldM w _ (fun js '(Ms, T1) => exists n, js = seq n (5 - n) /\ n <= 5 /\ Forall2 MPH Ms (firstn n gms) /\ T T1 (appended t (spoken (firstn n ms))))).
      + intros j js [Ms T1] (n & Ej & Hn & HM & HT1). destruct (Nat.eq_dec n 5) as [->|Hne]; [discriminate Ej|].
        assert (Ej' : seq n (5 - n) = n :: seq (S n) (5 - S n)) by (replace (5 - n) with (S (5 - S n)) by lia; reflexivity).
        rewrite Ej' in Ej. injection Ej as -> ->.
        assert (Hnm : exists m, nth_error ms n = Some m). { destruct (nth_error ms n) eqn:E; [eexists; reflexivity|]. apply nth_error_None in E. lia. }
        assert (Hng : exists gm, nth_error gms n = Some gm). { destruct (nth_error gms n) eqn:E; [eexists; reflexivity|]. apply nth_error_None in E. lia. }
        destruct Hnm as (m & Em). destruct Hng as (gm & Eg).
        assert (Hmr : mrep m gm).
        { clear - HF Em Eg. revert n Em Eg. induction HF; intros [|n] Em Eg; cbn in Em, Eg; try discriminate; [congruence|]. eapply IHHF; eassumption. }
        assert (FS : forall {A} (l : list A) x, nth_error l n = Some x -> firstn (S n) l = firstn n l ++ [x]).
        { clear. intros A l. revert n. induction l as [|y l IH]; intros [|n] x E; cbn in E; try discriminate; [injection E as ->; reflexivity|]. cbn [firstn app]. f_equal. apply (IH n x E). }
        eapply (H_message i round ms n m gm T1 _ (fun '(L, R, l, rr, t) => ret (Ms ++ [(L, R, l, rr)], t))); try eassumption; [lia|].
        intros M T2 HM2 HT2. destruct M as [[[P1 P2] P3] P4]. apply complete_ret. exists (S n). split; [reflexivity|]. split; [lia|].
        rewrite !(FS _ _ _ Em), (FS _ _ _ Eg), spoken_app, appended_app. split; [|exact HT2]. apply Forall2_app; [exact HM|]. constructor; [exact HM2|constructor].
      + exists 0. split; [reflexivity|]. split; [lia|]. split; [constructor|exact HT].
    - cbv beta. intros [Ms T1] (n & En & Hn & H1 & H2). destruct (Nat.eq_dec n 5) as [->|Hne]; [|destruct n as [|[|[|[|[|n]]]]]; try discriminate En; lia].
      rewrite !firstn_all2 in H1, H2 by lia. split; assumption.
  Qed.
  Lemma H_update z c u ui pv gv M gm : CH z c -> u = get_challenge_scalar c -> fmul u ui = fone -> PV pv gv -> MPH M gm ->
    complete w (ip_update one z pv M) (fun pv' => PV pv' (gstep u ui gv gm)).
  Proof.
    intros HZ Eu HU [HP HV] HM. destruct M as [[[L R] l] rr], gm as [[[gL gR] gl] gr], pv as [P V], gv as [gp_ gv_]. destruct HM as (H1 & H2 & H3 & H4).
    cbn [fst snd] in HP, HV. unfold ip_update. rewrite Eu in HU.
    eapply (H_nsb w); [apply (H_endo CL one w w_one HB1 HB2 _ _ _ _ H1 HZ)|]. cbv beta. intros L' HL'.
    eapply (H_nsb w); [apply (H_inv CL one w w_one HB1 HB2 _ _ _ _ ui H2 HZ HU)|]. cbv beta. intros R' HR'.
    eapply (H_nsb w); [apply (H_endo CL one w w_one HB1 HB2 _ _ _ _ H3 HZ)|]. cbv beta. intros l' Hl'.
    eapply (H_nsb w); [apply (H_inv CL one w w_one HB1 HB2 _ _ _ _ ui H4 HZ HU)|]. cbv beta. intros r' Hr'.
    eapply (H_nsb w); [apply (H_add CL one w w_one _ _ _ _ HP HL')|]. cbv beta. intros P1 HP1.
    eapply (H_nsb w); [apply (H_add CL one w w_one _ _ _ _ HP1 HR')|]. cbv beta. intros P2 HP2.
    eapply (H_nsb w); [apply (H_add CL one w w_one _ _ _ _ HV Hl')|]. cbv beta. intros V1 HV1.
    eapply (H_nsb w); [apply (H_add CL one w w_one _ _ _ _ HV1 Hr')|]. cbv beta. intros V2 HV2.
    apply complete_ret. rewrite <- Eu in *. split; assumption.
  Qed.
  (** the points after a round *)
  Definition ground (u ui : Scalar C) (gvs : list (G * G)) (gms : list gmsg) : list (G * G) := map (fun '(gv, gm) => gstep u ui gv gm) (combine gvs gms).
  Lemma H_updates z c u ui : CH z c -> u = get_challenge_scalar c -> fmul u ui = fone -> forall pvs gvs Ms gms, Forall2 PV pvs gvs -> Forall2 MPH Ms gms ->
    complete w (mapM (fun '(pv, m) => ip_update one z pv m) (combine pvs Ms)) (fun pvs' => Forall2 PV pvs' (ground u ui gvs gms)).
  Proof.
    intros HZ Eu HU pvs gvs Ms gms HP. unfold ground. revert Ms gms. induction HP as [|pv gv pvs gvs Hpv _ IH]; intros Ms gms HM; cbn [combine mapM map].
    - apply complete_ret. constructor.
    - destruct HM as [|M gm Ms gms HM HMs]; cbn [combine mapM map]; [apply complete_ret; constructor|].
      eapply complete_bind; [apply (H_update z c u ui pv gv M gm HZ Eu HU Hpv HM)|]. cbv beta. intros pv' Hpv'.
      eapply complete_bind; [apply (IH Ms gms HMs)|]. cbv beta. intros pvs' Hpvs'. apply complete_ret. constructor; assumption.
  Qed.
  (** all rounds *)
  Definition inv_of (u ui : Scalar C) : Prop := fmul u ui = fone.
  Fixpoint grounds (us : list (Scalar C * Scalar C)) (gmss : list (list gmsg)) (gvs : list (G * G)) : list (G * G) :=
    match us, gmss with
    | (u, ui) :: us, gms :: gmss => grounds us gmss (ground u ui gvs gms)
    | _, _ => gvs
    end.
  Lemma ground_length u ui gvs gms : length gvs = 5 -> length gms = 5 -> length (ground u ui gvs gms) = 5.
  Proof. intros H1 H2. unfold ground. rewrite map_length, combine_length, H1, H2. reflexivity. Qed.

  Variable forks : list nat.
  Hypothesis Hforks : vc_forkvalues self = Some forks.
  Lemma H_round i round ms gms n c ui pvs gvs T0 t t1 packed :
    nth_error (mo_rounds (pf_inner_product (op_proof virt))) i = Some round -> i < k -> sent 5 round ms -> Forall2 mrep ms gms ->
    nth_error forks i = Some n -> n < 256 -> challenge_after (absorb (appended t (spoken ms)) (number n)) c t1 ->
    fmul (get_challenge_scalar c) ui = fone -> Forall2 PV pvs gvs -> length gvs = 5 -> T T0 t ->
    complete w (ip_round one self (pvs, T0, packed) i)
      (fun '(pvs', T1, packed') => Forall2 PV pvs' (ground (get_challenge_scalar c) ui gvs gms) /\ T T1 t1 /\ exists z, CH z c /\ packed' = packed ++ [z]).
  Proof.
    intros Er Hi HS HF En Hn HC HU HP HL HT. unfold ip_round. apply complete_namespace.
    rewrite (UnpackP.Forall2_length _ _ _ HP), HL.
    eapply complete_bind; [apply (H_messages i round ms gms Er Hi HS HF T0 t HT)|]. intros [Ms T1] [HM HT1].
    rewrite Hforks, En. cbn [unwrap].
    change (bind (bind (ret n) (fun f => ret (Ok (f_from_u128 (Z.of_nat f))))) ?f) with (f (Ok (f_from_u128 (Z.of_nat n)) : res F)).
    cbv beta. rewrite (number_u128 n Hn).
    eapply (H_nsb w) with (Q1 := fun o => RA w true o (number n)).
    { eapply complete_weaken; [exact (m_alloc w true (Ok (number n)) (number n) (fun _ => eq_refl))|]. cbv beta. intros o Ho. exact (Ho eq_refl). }
    intros o Ho. eapply (H_nsb w); [apply (J_t_absorb FL one w w_one true T1 _ _ _ HT1 (RN_from FL w true _ _ Ho))|]. cbv beta. intros T2 HT2.
    eapply (H_nsb w); [apply (H_challenge CL one w w_one _ _ c t1 HT2 HC)|]. intros [z T3] [HT3 HZ].
    eapply complete_bind; [apply (H_updates z c _ ui HZ eq_refl HU pvs gvs Ms gms HP HM)|]. cbv beta. intros pvs' Hpvs'.
    apply complete_ret. split; [exact Hpvs'|]. split; [exact HT3|]. exists z. split; [exact HZ|reflexivity].
  Qed.

  Definition scaled (c : Scalar C) (u : Scalar C * Scalar C) : Prop := fst u = get_challenge_scalar c /\ fmul (fst u) (snd u) = fone.
  Lemma nth_skipn {A} i : forall (l : list A) x rest, skipn i l = x :: rest -> nth_error l i = Some x /\ skipn (S i) l = rest.
  Proof.
    induction i as [|i IH]; intros [|y l] x rest H; cbn in H; try discriminate; [injection H as -> ->; split; reflexivity|].
    destruct (IH l x rest H) as [H1 H2]. split; [exact H1|exact H2].
  Qed.
  Lemma H_rounds : forall rounds t mss packeds fs t', said 5 t rounds mss packeds fs t' -> forall gmss us i pvs gvs T0 packed,
    Forall2 (Forall2 mrep) mss gmss -> Forall2 scaled packeds us ->
    skipn i (mo_rounds (pf_inner_product (op_proof virt))) = rounds -> skipn i forks = fs -> i + length rounds <= k ->
    Forall2 PV pvs gvs -> length gvs = 5 -> T T0 t ->
    complete w (foldM (ip_round one self) (seq i (length rounds)) (pvs, T0, packed))
      (fun '(pvs', T1, packed') => Forall2 PV pvs' (grounds us gmss gvs) /\ T T1 t' /\ exists zs, Forall2 CH zs packeds /\ packed' = packed ++ zs).
  Proof.
    intros rounds t mss packeds fs t' H. induction H as [t|t round ms n c t1 rounds mss packeds fs t' HS Hn HC _ IH]; intros gmss us i pvs gvs T0 packed HM HU HR HFk Hk HP HL HT.
    - inversion HM; subst. inversion HU; subst. cbn [length seq foldM grounds]. apply complete_ret. split; [exact HP|]. split; [exact HT|]. exists []. split; [constructor|symmetry; apply app_nil_r].
    - inversion HM as [|a gms b gmss' Hms Hmss]; subst. inversion HU as [|a [u ui] b us' [Hu1 Hu2] Hus]; subst. cbn [fst snd] in Hu1, Hu2.
      destruct (nth_skipn _ _ _ _ HR) as [Er HR']. destruct (nth_skipn _ _ _ _ HFk) as [En HFk']. cbn [length] in Hk |- *. cbn [seq foldM grounds].
      assert (HLm : length gms = 5) by (rewrite <- (UnpackP.Forall2_length _ _ _ Hms); apply HS).
      eapply complete_bind.
      { eapply (H_round i round ms gms n c ui); try eassumption; [lia|]. rewrite <- Hu1. exact Hu2. }
      intros [[pvs1 T1] packed1] (HP1 & HT1 & z & HZ & ->).
      eapply complete_weaken; [eapply (IH gmss' us' (S i) pvs1); try eassumption; [lia|apply (ground_length _ _ _ _ HL HLm)]|].
      intros [[pvs' T'] packed'] (HP' & HT' & zl & HZl & ->). rewrite Hu1. split; [exact HP'|]. split; [exact HT'|]. exists (z :: zl). split; [constructor; assumption|].
      rewrite <- app_assoc. reflexivity.
  Qed.

  (** *** the final checks *)
  Context {md : bool}.
  Notation hon := (hon w md).
  Lemma V_witness_commit {B} s (f : OldProof C -> C) i g T0 t (kk : _ -> CS F B) Q : rep (f (zero_old k D OD)) g0 -> f virt = item_point i -> rep (item_point i) g ->
    T T0 t -> (forall P T1, PH P g -> T T1 (appended t [i]) -> hon (kk (P, T1)) Q) ->
    hon (bind (witness_commit one self s f T0) kk) Q.
  Proof.
    intros H0 E Hi HT HK. eapply hon_bindc; [exact (H_witness_commit s f i g T0 t H0 E Hi HT)|]. intros [P T1] [H1 H2]. apply HK; assumption.
  Qed.
  Lemma V_final bc b0 Gn gn Pg j pv gv bits bs bj a : bit_has w bc b0 -> PH Gn gn -> PH Pg gen -> PV pv gv -> BH bits bs ->
    (bits_val bs mod r)%Z = vs bj -> nth_error (mo_a (pf_inner_product (op_proof virt))) j = Some a -> j < 5 ->
    (md = true -> b0 = false -> fst gv = zs a gn /\ snd gv = zs (fmul bj a) gen) ->
    hon (ip_final one self bc Gn Pg j pv bits) (fun _ => b0 = false -> fst gv = zs a gn /\ snd gv = zs (fmul bj a) gen).
  Proof.
    intros Hb HG HPg HP HB HV Ha Hj HE. destruct pv as [P V], gv as [gp_ gv_]. destruct HP as [HP1 HP2]. cbn [fst snd] in *. unfold ip_final.
    replace (match vc_proof self with Some q0 => nth_error (mo_a (pf_inner_product (op_proof q0))) j | None => Some fzero end) with (Some a).
    2: { unfold virt in Ha. destruct (vc_proof self); [symmetry; exact Ha|]. cbn [zero_old op_proof pf_inner_product mo_a] in Ha. rewrite nth_error_repeat in Ha by exact Hj. congruence. }
    cbn [unwrap]. change (bind (ret a) ?f) with (f a). cbv beta.
    eapply hon_nsbc; [apply (witness_bits_complete FL one w a)|]. cbv beta. intros al Hal. destruct (fe_bits_val SL a) as [_ Va].
    assert (Va' : (bits_val (fe_bits a) mod r)%Z = vs a) by (rewrite Va; apply Z.mod_small, (ol_range _ _ _ SO)).
    eapply hon_nsbc; [apply (H_mul CL one w w_one _ _ _ _ a HG Hal Va')|]. cbv beta. intros ag Hag.
    eapply hon_nsb; [apply (V_points_equal CL one w w_one _ _ bc b0 P ag _ _ Hb HP1 Hag); intros Em E; apply (HE Em E)|]. cbv beta. intros _ E1.
    eapply hon_nsbc; [apply (H_mul CL one w w_one _ _ _ _ a HPg Hal Va')|]. cbv beta. intros av Hav.
    match goal with |- context [cp_multiply one ?P bits] => constr_eq P av end.
    eapply hon_nsbc; [apply (H_mul CL one w w_one _ _ _ _ bj Hav HB HV)|]. cbv beta. intros abv Habv.
    apply hon_ns. eapply hon_weaken; [apply (V_points_equal CL one w w_one _ _ bc b0 V abv _ _ Hb HP2 Habv); intros Em E; rewrite <- (zs_mul CL); apply (HE Em E)|].
    cbv beta. intros _ E2 E. split; [exact (E1 E)|]. rewrite (zs_mul CL). exact (E2 E).
  Qed.
  Lemma V_finals bc b0 Gn gn Pg bl (R : nat -> G * G -> Scalar C -> Scalar C -> Prop) : bit_has w bc b0 -> PH Gn gn -> PH Pg gen -> forall pvs gvs, Forall2 PV pvs gvs -> length gvs = 5 ->
    (forall j gv, nth_error gvs j = Some gv -> exists bits bs bj a, nth_error bl j = Some bits /\ BH bits bs /\ (bits_val bs mod r)%Z = vs bj /\ R j gv bj a /\
       nth_error (mo_a (pf_inner_product (op_proof virt))) j = Some a /\ (md = true -> b0 = false -> fst gv = zs a gn /\ snd gv = zs (fmul bj a) gen)) ->
    hon (foldM (fun (_ : unit) '(j, pv) => bind (unwrap (nth_error bl j)) (fun bj => ip_final one self bc Gn Pg j pv bj)) (enumerate pvs) tt)
      (fun _ => b0 = false -> forall j gv, nth_error gvs j = Some gv -> exists bj a, R j gv bj a /\ fst gv = zs a gn /\ snd gv = zs (fmul bj a) gen).
  Proof.
    intros Hb HG HPg pvs gvs HP HL HE. unfold enumerate. pose proof (UnpackP.Forall2_length _ _ _ HP) as HL'. rewrite HL in HL'.
    assert (X : forall l gl i, Forall2 PV l gl -> i + length gl = 5 -> (forall j gv, nth_error gl j = Some gv -> nth_error gvs (i + j) = Some gv) ->
      hon (foldM (fun (_ : unit) '(j, pv) => bind (unwrap (nth_error bl j)) (fun bj => ip_final one self bc Gn Pg j pv bj)) (combine (seq i (length l)) l) tt)
        (fun _ => b0 = false -> forall j gv, nth_error gl j = Some gv -> exists bj a, R (i + j) gv bj a /\ fst gv = zs a gn /\ snd gv = zs (fmul bj a) gen)).
    { intros l gl i HF. revert i. induction HF as [|pv gv l gl Hpv _ IH]; intros i Hi HN; cbn [length seq combine foldM]; [apply hon_ret; intros _ [|j] gv E; discriminate E|].
      cbn [length] in Hi. pose proof (HN 0 gv eq_refl) as Hg. rewrite Nat.add_0_r in Hg. destruct (HE i gv Hg) as (bits & bs & bj & a & E1 & E2 & E3 & ER & E4 & E5).
      eapply hon_bind.
      - rewrite E1. change (bind (unwrap (Some bits)) ?f) with (f bits). cbv beta. eapply V_final; try eassumption. lia.
      - cbv beta. intros [] FE. eapply hon_weaken; [apply IH; [lia|]; intros j gv' Hj; replace (S i + j) with (i + S j) by lia; apply HN; exact Hj|].
        cbv beta. intros _ FS E [|j] gv' Hj; cbn [nth_error] in Hj.
        + injection Hj as <-. exists bj, a. rewrite Nat.add_0_r. split; [exact ER|exact (FE E)].
        + replace (i + S j) with (S i + j) by lia. exact (FS E j gv' Hj). }
    apply (X pvs gvs 0 HP); [lia|]. intros j gv Hj. exact Hj.
  Qed.
End Rounds.
