(** The recursive verification circuit accepts what the native verifier accepts:
    the gadgets of [g_verify_proof], in terms of the group. *)
From Coq Require Import String List Bool Arith ZArith Lia Ring Field.
From Verif Require Import Lib.AbGroup Model.FieldTrait Model.Circuits Model.Num Model.Boolean Model.Curve Model.Ecc Model.Threads Model.Params Model.Util
  Model.Rescue Model.RescueGadget Model.Opening Model.Proofs Model.Recursion
  Spec.FieldLaws Spec.CircuitSpec Spec.NumSpec Spec.BoolSpec Spec.UtilSpec Spec.CurveSpec Spec.CurveLaws Spec.EccSpec Spec.ProofSpec Spec.VerifySpec Spec.RecursionSpec
  Proofs.FieldGen Proofs.ZtoF Proofs.CircuitP Proofs.LcP Proofs.NumP Proofs.BoolP Proofs.UnpackP Proofs.ChallengeP Proofs.CurveTop Proofs.EccP Proofs.EccAddP Proofs.EccMulP
  Proofs.RescueGadgetP Proofs.RecursionP Proofs.ModeP Proofs.RecursionDeferredP Proofs.TranscriptGadgetP Proofs.EncodeP Proofs.RecursionGlue Proofs.VerifyP Proofs.SliceP Proofs.HonP.
Import ListNotations.
Open Scope nat_scope. Open Scope list_scope.
Notation represents := CurveSpec.represents.

Section Gadgets.
  Context {C : Curve} {q vb r vs} (CL : CurveLaws C q vb r vs) (one : Var).
  Notation F := (Base C).
  Let FL : FieldLaws F q vb := cl_base _ _ _ _ _ CL.
  Let OL : OpsLaws F q vb := fl_ops _ _ _ FL.
  Let SL : FieldLaws (Scalar C) r vs := cl_scalar _ _ _ _ _ CL.
  Let SO : OpsLaws (Scalar C) r vs := fl_ops _ _ _ SL.
  Add Field Ff : (ffield OL).
  Add Field Fs : (ffield SO).
  Variable w : assignment F.
  Hypothesis w_one : w one = fone.
  Hypothesis HB1 : f_BETA = BETA_BASE C.
  Hypothesis HB2 : f_BETA = BETA_SCALAR C.
  Notation G := (cl_group _ _ _ _ _ CL).
  Notation pt := (cl_point _ _ _ _ _ CL).
  Notation gen := (cl_gen _ _ _ _ _ CL).
  Notation rep := (CurveTop.rep CL).
  Notation zs := (EccMulP.zs CL).
  Implicit Types (g h : G) (u : Scalar C).

  Definition PH (P : CurvePoint C) g : Prop := cp_has w P (pt g).
  Notation BH := (Forall2 (bit_has w)).
  Notation T := (TR w true).
  (** the bits of a challenge *)
  Definition CH (bits : list AllocatedBit) (c : Scalar C) : Prop := exists bs, BH bits bs /\ length bs = 128 /\ bits_val bs = vs c.

  Lemma CH_len bits c : CH bits c -> length bits = 128.
  Proof. intros (bs & H & HL & _). rewrite (UnpackP.Forall2_length _ _ _ H). exact HL. Qed.
  Lemma ph_x P g : PH P g -> RN w true (cp_x P) (abscissa (pt g)).
  Proof. intros ((_ & H & _) & H2 & _). split; [exact H|intros _; exact H2]. Qed.
  Lemma ph_y P g : PH P g -> RN w true (cp_y P) (ordinate (pt g)).
  Proof. intros ((_ & _ & H & _) & _ & H2 & _). split; [exact H|intros _; exact H2]. Qed.

  Lemma item_xy (i : item C) g : rep (item_point i) g -> elements i = [abscissa (pt g); ordinate (pt g)].
  Proof. intro H. unfold elements. rewrite (cl_get_xy _ _ _ _ _ CL _ _ H). destruct (pt g) as [[x y]|]; reflexivity. Qed.
  Lemma H_commit T0 t P i g : T T0 t -> PH P g -> rep (item_point i) g ->
    complete w (commit_point one T0 P) (fun T' => T T' (appended t [i])).
  Proof.
    intros HT HP Hi. unfold commit_point, appended. cbn [flat_map]. rewrite (item_xy i g Hi). cbn [app fold_left].
    change (JJ w true (bind (namespace "absorb x" (gadget_absorb one T0 (cp_x P))) (fun t => namespace "absorb y" (gadget_absorb one t (cp_y P))))
      (fun T' => T T' (absorb (absorb t (abscissa (pt g))) (ordinate (pt g))))).
    eapply (J_nsb w true); [apply (J_t_absorb FL one w w_one true T0 t _ _ HT (ph_x P g HP))|]. cbv beta. intros T1 HT1.
    apply (J_ns w true), (J_t_absorb FL one w w_one true T1 _ _ _ HT1 (ph_y P g HP)).
  Qed.
  Lemma H_challenge T0 t c t1 : T T0 t -> challenge_after t c t1 ->
    complete w (g_get_challenge one T0) (fun '(bits, T1) => T T1 t1 /\ CH bits c).
  Proof.
    intros HT (e & He & Hc).
    eapply complete_weaken; [exact (J_get_challenge FL one w w_one true T0 t HT)|].
    cbv beta. intros [bits T1] (e' & r' & z & bs & E & HT1 & HB & [HL HV] & _ & _ & Hz). specialize (Hz eq_refl). rewrite He in E. injection E as <- <-.
    split; [exact HT1|]. exists bs. split; [exact (RB_has _ _ _ _ eq_refl HB)|]. split; [exact HL|].
    destruct (fl_to_bytes _ _ _ SL c) as (_ & _ & E1). destruct (fl_to_bytes _ _ _ FL e) as (_ & _ & E2).
    rewrite E1, E2 in Hc. rewrite Hc, HV, Hz. reflexivity.
  Qed.
  Lemma H_witness (p : C) g : rep p g -> complete w (cp_witness one (Ok p)) (fun R => PH R g).
  Proof. apply (witness_complete CL one w w_one). Qed.
  Lemma H_add P Q g h : PH P g -> PH Q h -> complete w (cp_add one P Q) (fun R => PH R (gp g h)).
  Proof. intros HP HQ. apply (add_complete CL one w w_one P Q _ _ _ HP HQ). apply (pt_sum CL). Qed.
  Lemma H_mul P g bits bs s : PH P g -> BH bits bs -> (bits_val bs mod r)%Z = vs s ->
    complete w (cp_multiply one P bits) (fun R => PH R (zs s g)).
  Proof.
    intros HP HB HV. unfold PH, EccMulP.zs. rewrite <- HV, (CurveTop.zmul_vs_mod CL). exact (multiply_scalar CL one w w_one P g bits bs HP HB).
  Qed.
  Lemma challenge_endo bs (c : Scalar C) : length bs = 128 -> bits_val bs = vs c -> endo_scalar bs = get_challenge_scalar c :> Scalar C.
  Proof.
    intros HL HV. symmetry. apply (challenge_bits SL c bs HL). intros i Hi. rewrite <- HV. symmetry. apply testbit_nth.
  Qed.
  Lemma H_endo P g bits c : PH P g -> CH bits c ->
    complete w (cp_multiply_endo one P bits) (fun R => PH R (zs (get_challenge_scalar c) g)).
  Proof.
    intros HP HC. pose proof (CH_len _ _ HC) as HL. destruct HC as (bs & HB & HL' & HV). rewrite <- (challenge_endo bs c HL' HV).
    exact (multiply_endo_scalar CL one w w_one HB1 HB2 P g bits bs HP HB HL).
  Qed.
  Lemma H_inv P g bits c ui : PH P g -> CH bits c -> fmul (get_challenge_scalar c) ui = fone ->
    complete w (cp_multiply_inv_endo one P bits) (fun R => PH R (zs ui g)).
  Proof.
    intros HP HC HU. pose proof (CH_len _ _ HC) as HL. destruct HC as (bs & HB & HL' & HV).
    eapply complete_weaken; [exact (multiply_inv_endo_scalar CL one w w_one HB1 HB2 P g bits bs HP HB HL)|].
    cbv beta. intros R (h & HR & E). rewrite (challenge_endo bs c HL' HV) in E. revert E HU.
    generalize (get_challenge_scalar c : Scalar C). intros u E HU. subst g. rewrite <- (zs_mul CL).
    replace (fmul ui u) with (fone : Scalar C) by (rewrite <- HU; ring). rewrite (zs_one CL). exact HR.
  Qed.
  Lemma H_const (p : C) g x y : rep p g -> c_get_xy p = Some (x, y) -> PH (cp_constant x y) g.
  Proof.
    intros H E. rewrite (cl_get_xy _ _ _ _ _ CL _ _ H) in E. unfold PH.
    assert (HO : on_curve (c_b C) (pt g)) by exact (rep_on_curve p _ H). rewrite E in *.
    split; [split; [exact HO|]|]; repeat split.
  Qed.
  Lemma H_gen {B} (k : CurvePoint C -> CS F B) Q : (forall P, PH P gen -> complete w (k P) Q) -> complete w (bind g_constant k) Q.
  Proof.
    intro H. unfold g_constant. pose proof (cl_rep_one _ _ _ _ _ CL) as H1. pose proof (cl_get_xy _ _ _ _ _ CL _ _ H1) as E.
    destruct (pt gen) as [[x y]|] eqn:EG.
    - rewrite E. cbn [unwrap]. change (complete w (k (cp_constant x y)) Q). apply H. apply (H_const c_one); [unfold CurveTop.rep; rewrite EG; exact H1|exact E].
    - exfalso. apply (cl_gen_nonzero _ _ _ _ _ CL). apply (pt_inf CL). exact EG.
  Qed.
  Lemma H_bits_at {B} bits bs o n (k : list AllocatedBit -> CS F B) Q : BH bits bs -> o + n <= length bs ->
    (forall l, BH l (firstn n (skipn o bs)) -> complete w (k l) Q) -> complete w (bind (bits_at bits o n) k) Q.
  Proof.
    intros HB HL H. unfold bits_at. rewrite (UnpackP.Forall2_length _ _ _ HB). rewrite (proj2 (Nat.leb_le _ _) HL).
    change (complete w (k (firstn n (skipn o bits))) Q). apply H. apply F2_firstn, F2_skipn, HB.
  Qed.
  Lemma H_nsb {A B} s (c : CS F A) (f : A -> CS F B) Q1 Q : complete w c Q1 -> (forall a, Q1 a -> complete w (f a) Q) ->
    complete w (bind (namespace s c) f) Q.
  Proof. intros H1 H2. eapply complete_bind; [apply complete_namespace, H1|exact H2]. Qed.
  Lemma H_opening Pg T0 t bits bs o s : PH Pg gen -> T T0 t -> BH bits bs -> at_bits r bs o 256 (vs s) ->
    complete w (opening_point one Pg T0 bits o) (fun '(P, T1) => PH P (zs s gen) /\ T T1 (appended t [Scal s])).
  Proof.
    intros Hg HT HB [HL HV]. unfold opening_point.
    eapply H_bits_at; [exact HB|exact HL|]. intros l Hl.
    eapply H_nsb; [apply (H_mul _ _ _ _ s Hg Hl HV)|]. cbv beta. intros P HP.
    eapply H_nsb; [apply (H_commit _ _ _ (Scal s) _ HT HP); apply (rep_mul CL), (cl_rep_one _ _ _ _ _ CL)|].
    cbv beta. intros T1 HT1. apply complete_ret. split; assumption.
  Qed.
  Lemma H_chain z c others gs : CH z c -> Forall2 PH others gs -> forall first g, PH first g ->
    complete w (endo_chain one z first others) (fun R => PH R (fold_left (fun a h => gp (zs (get_challenge_scalar c) a) h) gs g)).
  Proof.
    intros HZ HF. unfold endo_chain. induction HF as [|Q h others gs HQ _ IH]; intros first g Hf; cbn [foldM fold_left].
    - apply complete_ret, Hf.
    - eapply complete_bind; [|intros R HR; apply IH, HR].
      eapply H_nsb; [apply (H_endo _ _ _ _ Hf HZ)|]. cbv beta. intros R HR. apply complete_namespace, (H_add _ _ _ _ HR HQ).
  Qed.
  Lemma H_unpack n x : RN w true n x -> complete w (unpack_fe one n) (fun bits => exists bs, BH bits bs /\ length bs = 256 /\ bits_val bs = vb x).
  Proof.
    intro H. eapply complete_weaken; [exact (J_unpack_fe FL one w w_one true n x H)|]. cbv beta.
    intros bits (bs & HL & HB & _ & HV). exists bs. split; [exact (RB_has _ _ _ _ eq_refl HB)|]. split; [rewrite <- (UnpackP.Forall2_length _ _ _ HB); exact HL|apply HV, eq_refl].
  Qed.
  (** *** the same steps before the rest of the circuit *)
  Context {md : bool}.
  Notation hon := (hon w md).
  Lemma V_gen {B} (k : CurvePoint C -> CS F B) Q : (forall P, PH P gen -> hon (k P) Q) -> hon (bind g_constant k) Q.
  Proof.
    intro H. unfold g_constant. pose proof (cl_rep_one _ _ _ _ _ CL) as H1. pose proof (cl_get_xy _ _ _ _ _ CL _ _ H1) as E.
    destruct (pt gen) as [[x y]|] eqn:EG.
    - rewrite E. cbn [unwrap]. change (hon (k (cp_constant x y)) Q). apply H. apply (H_const c_one); [unfold CurveTop.rep; rewrite EG; exact H1|exact E].
    - exfalso. apply (cl_gen_nonzero _ _ _ _ _ CL). apply (pt_inf CL). exact EG.
  Qed.
  Lemma V_bits_at {B} bits bs o n (k : list AllocatedBit -> CS F B) Q : BH bits bs -> o + n <= length bs ->
    (forall l, BH l (firstn n (skipn o bs)) -> hon (k l) Q) -> hon (bind (bits_at bits o n) k) Q.
  Proof.
    intros HB HL H. unfold bits_at. rewrite (UnpackP.Forall2_length _ _ _ HB). rewrite (proj2 (Nat.leb_le _ _) HL).
    change (hon (k (firstn n (skipn o bits))) Q). apply H. apply F2_firstn, F2_skipn, HB.
  Qed.
  Lemma V_opening {B} Pg T0 t bits bs o s (k : _ -> CS F B) Q : PH Pg gen -> T T0 t -> BH bits bs -> at_bits r bs o 256 (vs s) ->
    (forall P T1, PH P (zs s gen) -> T T1 (appended t [Scal s]) -> hon (k (P, T1)) Q) ->
    hon (bind (opening_point one Pg T0 bits o) k) Q.
  Proof.
    intros Hg HT HB HA H. eapply hon_bindc; [exact (H_opening _ _ _ _ _ _ _ Hg HT HB HA)|]. intros [P T1] [H1 H2]. apply H; assumption.
  Qed.
  (** *** the checks *)
  Lemma V_equal bc b l r0 xs ys : bit_has w bc b -> BH l xs -> BH r0 ys -> length xs = length ys -> (md = true -> b = false -> xs = ys) ->
    hon (equal_unless_base_case one bc l r0) (fun _ => b = false -> xs = ys).
  Proof.
    intros Hb H1 H2 HL HE. apply hon_check; [|eapply sound_weaken; [exact (equal_unless_sound FL one w w_one bc b l r0 xs ys (proj1 Hb) (F2_has _ _ _ H1) (F2_has _ _ _ H2))|]|exact HE].
    - intro E. apply (equal_unless_complete FL one w w_one bc b l r0 xs ys); try assumption.
      rewrite (UnpackP.Forall2_length _ _ _ H1), (UnpackP.Forall2_length _ _ _ H2). exact HL.
    - intros _ [->|E] Ef; [discriminate Ef|exact E].
  Qed.
  (** the same for a number given by its bits *)
  Lemma V_value bc b l r0 xs ys v : bit_has w bc b -> BH l xs -> BH r0 ys -> length xs = length ys -> bits_val xs = v -> (md = true -> b = false -> bits_val ys = v) ->
    hon (equal_unless_base_case one bc l r0) (fun _ => b = false -> bits_val ys = v).
  Proof.
    intros Hb H1 H2 HL HV HE. eapply hon_weaken; [apply (V_equal bc b l r0 xs ys Hb H1 H2 HL)|]; cbv beta.
    - intros Em E. apply bits_val_inj; [exact HL|]. rewrite HV. symmetry. apply (HE Em E).
    - intros _ E Eb. rewrite <- (E Eb). exact HV.
  Qed.
  Lemma V_point_equal s bc b P g bits bs o : bit_has w bc b -> PH P g -> BH bits bs -> o + 256 + 256 <= length bs ->
    (md = true -> b = false -> bits_val (firstn 256 (skipn o bs)) = vb (abscissa (pt g)) /\ bits_val (firstn 256 (skipn (o + 256) bs)) = vb (ordinate (pt g))) ->
    hon (point_equal_unless one s bc P bits o)
      (fun _ => b = false -> bits_val (firstn 256 (skipn o bs)) = vb (abscissa (pt g)) /\ bits_val (firstn 256 (skipn (o + 256) bs)) = vb (ordinate (pt g))).
  Proof.
    intros Hb HP HB HL HE. unfold point_equal_unless. apply hon_ns.
    eapply hon_nsbc; [apply H_unpack, (ph_x _ _ HP)|]. cbv beta. intros lx (xs & Hx & Lx & Vx).
    eapply hon_nsbc; [apply H_unpack, (ph_y _ _ HP)|]. cbv beta. intros ly (ys & Hy & Ly & Vy).
    assert (LF : forall n, n + 256 <= length bs -> length (firstn 256 (skipn n bs)) = 256).
    { intros n Hn. rewrite firstn_length, skipn_length. lia. }
    eapply V_bits_at; [exact HB|lia|]. intros l Hl.
    eapply hon_nsb; [apply (V_value bc b _ _ _ _ _ Hb Hx Hl ltac:(rewrite LF by lia; exact Lx) Vx); intros Em E; apply (HE Em E)|].
    cbv beta. intros _ F1. eapply V_bits_at; [exact HB|lia|]. intros l' Hl'.
    apply hon_ns. eapply hon_weaken; [apply (V_value bc b _ _ _ _ _ Hb Hy Hl' ltac:(rewrite LF by lia; exact Ly) Vy); intros Em E; apply (HE Em E)|].
    cbv beta. intros _ F2 E. split; [exact (F1 E)|exact (F2 E)].
  Qed.
  Lemma V_challenge_equal {B} s bc b z c bits bs o (k : unit -> CS F B) Q : bit_has w bc b -> CH z c -> BH bits bs -> o + 128 <= length bs ->
    (md = true -> b = false -> bits_val (firstn 128 (skipn o bs)) = vs c) -> ((b = false -> bits_val (firstn 128 (skipn o bs)) = vs c) -> hon (k tt) Q) ->
    hon (bind (bind (bits_at bits o 128) (fun l => namespace s (equal_unless_base_case one bc z l))) k) Q.
  Proof.
    intros Hb (zs0 & HZ & LZ & VZ) HB HL HE HK. eapply hon_bind with (Q1 := fun _ => b = false -> bits_val (firstn 128 (skipn o bs)) = vs c); [|intros [] X; exact (HK X)].
    eapply V_bits_at; [exact HB|exact HL|]. intros l Hl.
    assert (LF : length (firstn 128 (skipn o bs)) = 128) by (rewrite firstn_length, skipn_length; lia).
    apply hon_ns, (V_value bc b _ _ _ _ _ Hb HZ Hl); [congruence|exact VZ|exact HE].
  Qed.
  Lemma V_num_equal bc b n m x y : bit_has w bc b -> RN w true n x -> RN w true m y -> (md = true -> b = false -> x = y) ->
    hon (num_equal_unless_base_case one bc (comb_from n) (comb_from m)) (fun _ => b = false -> x = y).
  Proof.
    intros Hb [P1 P2] [Q1 Q2] HE. specialize (P2 eq_refl). specialize (Q2 eq_refl). apply hon_check; [| |exact HE].
    - intro E. apply (num_equal_complete FL one w w_one bc b); [exact Hb|apply (comb_from_ok FL), P2|apply (comb_from_ok FL), Q2|]. intro E'. rewrite !(comb_from_val FL), P1, Q1. exact (E E').
    - eapply sound_weaken; [exact (num_equal_sound FL one w w_one bc b _ _ (proj1 Hb))|]. cbv beta. intros _ [->|E] Ef; [discriminate Ef|]. rewrite !(comb_from_val FL), P1, Q1 in E. exact E.
  Qed.
  Lemma xy_inj g h : abscissa (pt g) = abscissa (pt h) -> ordinate (pt g) = ordinate (pt h) -> g = h.
  Proof.
    intros E1 E2. apply (cl_inj _ _ _ _ _ CL). pose proof (cl_on _ _ _ _ _ CL g) as Og. pose proof (cl_on _ _ _ _ _ CL h) as Oh.
    destruct (pt g) as [[x y]|], (pt h) as [[x' y']|]; cbn [abscissa ordinate] in E1, E2; subst; try reflexivity; exfalso; exact (zero_not_on CL ltac:(assumption)).
  Qed.
  Lemma V_points_equal s1 s2 bc b P Q g h : bit_has w bc b -> PH P g -> PH Q h -> (md = true -> b = false -> g = h) ->
    hon (bind (namespace s1 (num_equal_unless_base_case one bc (comb_from (cp_x P)) (comb_from (cp_x Q))))
      (fun _ => namespace s2 (num_equal_unless_base_case one bc (comb_from (cp_y P)) (comb_from (cp_y Q))))) (fun _ => b = false -> g = h).
  Proof.
    intros Hb HP HQ HE.
    eapply hon_nsb; [apply (V_num_equal bc b _ _ _ _ Hb (ph_x _ _ HP) (ph_x _ _ HQ)); intros Em E; rewrite (HE Em E); reflexivity|].
    cbv beta. intros _ E1. apply hon_ns. eapply hon_weaken; [apply (V_num_equal bc b _ _ _ _ Hb (ph_y _ _ HP) (ph_y _ _ HQ)); intros Em E; rewrite (HE Em E); reflexivity|].
    cbv beta. intros _ E2 E. apply xy_inj; [exact (E1 E)|exact (E2 E)].
  Qed.
End Gadgets.
