(** The statements of Properties/RecursionProps.v. *)
From Coq Require Import String List Bool Arith ZArith Lia Ring Field.
From Verif Require Import Model.FieldTrait Model.Circuits Model.Num Model.Boolean Model.Curve Model.Threads Model.Params Model.Util Model.Rescue Model.RescueGadget Model.Opening Model.Proofs Model.Recursion
  Spec.FieldLaws Spec.CircuitSpec Spec.NumSpec Spec.BoolSpec Spec.UtilSpec Spec.CurveSpec Spec.CurveLaws Spec.RecursionSpec
  Proofs.FieldGen Proofs.ZtoF Proofs.CircuitP Proofs.UnpackP Proofs.OpeningP Proofs.RescueGadgetP
  Proofs.RecursionP Proofs.ModeP Proofs.RecursionDeferredP Proofs.RecursionTop Proofs.TranscriptGadgetP Proofs.EncodeP Proofs.VerifyP.
Import ListNotations.
Open Scope nat_scope. Open Scope list_scope.

(** A transcript absorbing numbers, and then one challenge *)
Definition challenge_circuit {F : Field} (one : Var) (ns : list (Num F)) : CS F (list AllocatedBit) :=
  (t <- gadget_new one ;;
  t <- foldM (gadget_absorb one) ns t ;;
  '(bits, _) <- g_get_challenge one t ;;
  ret bits)%cs.

Section Glue.
  Context {F : Field} {p : Z} {v : F -> Z} (FL : FieldLaws F p v) (one : Var).
  Let OL : OpsLaws F p v := fl_ops _ _ _ FL.
  Add Field Fg : (ffield OL).
  Variable w : assignment F.
  Hypothesis w_one : w one = fone.

  Lemma RB_of_is bits bs : Forall2 (bit_is w) bits bs -> Forall2 (RB w false) bits bs.
  Proof. intro H. induction H as [|? ? ? ? Hb]; constructor; [|assumption]. split; [exact Hb|discriminate]. Qed.
  Lemma RB_of_has bits bs : Forall2 (bit_has w) bits bs -> Forall2 (RB w true) bits bs.
  Proof. intro H. induction H as [|? ? ? ? Hb]; constructor; [|assumption]. split; [apply Hb|intros _; exact Hb]. Qed.

  Lemma deferred_sound k bits bs : k <= 64 -> Forall2 (bit_is w) bits bs ->
    sound w (verify_deferred one k bits) (fun _ => exists D s t, encodes_deferred p v k D bs /\
      sign s /\ sign t /\ deferred_verify (with_signs s t D) k = Some true).
  Proof.
    intros Hk H. pose proof (J_verify_deferred FL one w w_one false k bits bs (RB_of_is _ _ H)) as HJ.
    assert (HN : need false (k <= 64 /\ exists D, encodes_deferred p v k D bs /\ deferred_verify D k = Some true)) by discriminate.
    specialize (HJ HN). eapply sound_weaken; [exact HJ|]. cbv beta. intros _ (D & HE & HH).
    pose proof HE as (L1 & L2 & _). apply (holds_signs FL k D Hk L1 L2) in HH. destruct HH as (s & t & H1 & H2 & H3).
    exists D, s, t. auto.
  Qed.
  Lemma deferred_complete k bits D bs : k <= 64 -> Forall2 (bit_has w) bits bs -> encodes_deferred p v k D bs ->
    deferred_verify D k = Some true -> complete w (verify_deferred one k bits) (fun _ => True).
  Proof.
    intros Hk H HE HV. pose proof (J_verify_deferred FL one w w_one true k bits bs (RB_of_has _ _ H)) as HJ.
    assert (HN : need true (k <= 64 /\ exists D, encodes_deferred p v k D bs /\ deferred_verify D k = Some true)).
    { intros _. split; [exact Hk|]. exists D. split; assumption. }
    specialize (HJ HN). eapply complete_weaken; [exact HJ|]. trivial.
  Qed.

  Lemma J_challenge_circuit m ns : Forall (fun n => need m (n_ok w n)) ns ->
    JJ w m (challenge_circuit one ns) (fun bits => exists e r' z bs,
      squeeze (fold_left absorb (map (n_val w) ns) rescue_new) = Some (e, r') /\ Forall2 (RB w m) bits bs /\
      challenge_bits z bs /\ (0 <= z < 2 ^ 256)%Z /\ (z mod p)%Z = v e /\ need m (z = v e)).
  Proof.
    intro H. unfold challenge_circuit. eapply (J_bind w m); [apply (J_t_new FL one w w_one)|]. intros g Hg. cbv beta in Hg.
    eapply (J_bind w m) with (Q1 := fun g => TR w m g (fold_left absorb (map (n_val w) ns) rescue_new)).
    - revert g Hg. generalize (@rescue_new F). induction H as [|n ns Hn _ IH]; intros r g Hg; cbn [foldM map fold_left].
      + apply (J_ret w m), Hg.
      + eapply (J_bind w m); [apply (J_t_absorb FL one w w_one m g r n (n_val w n) Hg); split; [reflexivity|exact Hn]|].
        cbv beta. intros g' Hg'. apply IH, Hg'.
    - intros g' Hg'. eapply (J_bind w m); [apply (J_get_challenge FL one w w_one m g' _ Hg')|].
      intros [bits g2] (e & r' & z & bs & E & _ & HB & HC & HR & HM & HN). apply (J_ret w m). exists e, r', z, bs. auto 10.
  Qed.
  Lemma challenge_circuit_sound ns : sound w (challenge_circuit one ns) (fun bits => exists e r' z bs,
      squeeze (fold_left absorb (map (n_val w) ns) rescue_new) = Some (e, r') /\ Forall2 (bit_is w) bits bs /\
      (0 <= z < 2 ^ 256)%Z /\ (z mod p)%Z = v e /\ challenge_bits z bs).
  Proof.
    assert (HN : Forall (fun n => need false (n_ok w n)) ns) by (apply Forall_forall; intros n _; discriminate).
    eapply sound_weaken; [exact (J_challenge_circuit false ns HN)|]. cbv beta.
    intros bits (e & r' & z & bs & E & HB & HC & HR & HM & _). exists e, r', z, bs. pose proof (RB_is _ _ _ _ HB). auto.
  Qed.
  Lemma challenge_circuit_complete ns {F2 : Field} {p2 v2} (FL2 : FieldLaws F2 p2 v2) : Forall (n_ok w) ns ->
    complete w (challenge_circuit one ns) (fun bits => exists (c : F2) r' bs,
      get_challenge F2 (fold_left absorb (map (n_val w) ns) rescue_new) = Done (c, r') /\ Forall2 (bit_has w) bits bs /\
      length bs = 128 /\ bits_val bs = le_val (f_to_bytes c)).
  Proof.
    intro H. assert (HN : Forall (fun n => need true (n_ok w n)) ns) by (eapply Forall_impl; [|exact H]; intros n Hn _; exact Hn).
    eapply complete_weaken; [exact (J_challenge_circuit true ns HN)|]. cbv beta.
    intros bits (e & r' & z & bs & E & HB & [HL HC] & HR & HM & HZ). specialize (HZ eq_refl). subst z.
    exists (f_from_u128 (Z.lor (f_get_lower_128 e) (Z.shiftl 1 127))), r', bs. unfold get_challenge. rewrite E. cbn [out_opt out_bind].
    split; [reflexivity|]. split; [exact (RB_has _ _ _ _ eq_refl HB)|]. split; [exact HL|].
    rewrite HC. destruct (fl_to_bytes _ _ _ FL2 (f_from_u128 (Z.lor (f_get_lower_128 e) (Z.shiftl 1 127)))) as (_ & _ & ->).
    rewrite (fl_lower _ _ _ FL). assert (Hm : (0 <= v e mod 2 ^ 128 < 2 ^ 128)%Z) by (apply Z.mod_pos_bound; reflexivity).
    rewrite (lor_top _ Hm). rewrite <- (Znumtheory.Zmod_div_mod (2 ^ 127) (2 ^ 128)) by (try reflexivity; exists 2%Z; reflexivity).
    pose proof (Z.mod_pos_bound (v e) (2 ^ 127) eq_refl) as HB'.
    symmetry. apply (fl_from_u128 _ _ _ FL2). lia.
  Qed.
End Glue.

Section Dummy.
  Context {F : Field} {p : Z} {v : F -> Z} (FL : FieldLaws F p v).
  Lemma small_v (x : F) : (v x < 2 ^ 128)%Z -> small x.
  Proof. intro H. unfold small. destruct (fl_to_bytes _ _ _ FL x) as (_ & _ & ->). exact H. Qed.
  Lemma dummy_small k (D : Deferred F) : deferred_dummy k = Some D ->
    length (d_challenges_sq_packed_old D) = k /\ length (d_challenges_sq_packed_new D) = k /\ Forall small (half_parts D).
  Proof.
    unfold deferred_dummy. cbv zeta. set (packed := repeat _ k). intro E.
    assert (P : length packed = k) by apply repeat_length.
    assert (S1 : small (fone : F)).
    { apply small_v. rewrite (ol_one _ _ _ (fl_ops _ _ _ FL)). reflexivity. }
    assert (S2 : Forall small packed).
    { apply Forall_forall. intros x Hx. apply repeat_spec in Hx. subst x. apply small_v. rewrite (fl_from_u64 _ _ _ FL); [reflexivity|].
      split; [apply Z.leb_le|apply Z.ltb_lt]; reflexivity. }
    clearbody packed. destruct (root_challenges (unpack_challenges packed)) as [cs|]; [|discriminate E]. cbn [obind] in E.
    destruct (invert_all cs) as [[ci ai]|]; [|discriminate E]. cbn [obind] in E.
    destruct (compute_b fone cs ci) as [b|]; [|discriminate E]. cbn [obind] in E. injection E as <-.
    split; [exact P|]. split; [exact P|]. unfold half_parts. cbn.
    repeat (apply Forall_cons; [exact S1|]). apply Forall_app. split; exact S2.
  Qed.
End Dummy.

Section Ambiguous.
  Context {C : Curve} {q vb r vs} (CL : CurveLaws C q vb r vs).
  Lemma dummy_leftovers_small M (P : Params C) L : leftovers_dummy M P = Some L -> Forall small (y_new L :: challenges_sq_packed_new L).
  Proof.
    pose proof (cl_scalar _ _ _ _ _ CL) as SL.
    unfold leftovers_dummy. cbv zeta. set (packed := repeat _ _). intro E.
    assert (S2 : Forall small packed).
    { apply Forall_forall. intros x Hx. apply repeat_spec in Hx. subst x. apply (small_v SL). rewrite (fl_from_u64 _ _ _ SL); [reflexivity|].
      split; [apply Z.leb_le|apply Z.ltb_lt]; reflexivity. }
    clearbody packed. destruct (root_challenges (unpack_challenges packed)) as [cs|]; [|discriminate E]. cbn [obind] in E.
    destruct (invert_all cs) as [[ci ai]|]; [|discriminate E]. cbn [obind] in E.
    destruct (compute_g_for_inner_product M (p_generators P) (unpack_challenges packed) ai) as [g|]; [|discriminate E]. cbn [obind] in E. injection E as <-.
    cbn [y_new challenges_sq_packed_new]. constructor; [|exact S2]. apply (small_v SL). rewrite (ol_zero _ _ _ (fl_ops _ _ _ SL)). reflexivity.
  Qed.
  Lemma leftovers_ambiguous : (2 ^ 128 < r)%Z -> exists a b : Leftovers C, s_new_commitment a = s_new_commitment b /\ g_new a = g_new b /\
    valid (g_new a) /\ valid (s_new_commitment a) /\
    challenges_sq_packed_new a = challenges_sq_packed_new b /\ y_new a <> y_new b /\ leftovers_to_bytes a = leftovers_to_bytes b.
  Proof.
    intro Hr. exists (mkLeft c_one fzero c_one [fone]), (mkLeft c_one (fz (2 ^ 128)) c_one [fone]).
    cbn [s_new_commitment g_new challenges_sq_packed_new y_new]. assert (V : valid (c_one : C)) by (eexists; apply (cl_rep_one _ _ _ _ _ CL)).
    pose proof (cl_scalar _ _ _ _ _ CL) as SL. pose proof (fl_ops _ _ _ SL) as OL.
    assert (EV : vs (fz (2 ^ 128)) = (2 ^ 128)%Z) by (rewrite (v_fz OL); apply Z.mod_small; split; [apply Z.leb_le; reflexivity|exact Hr]).
    split; [reflexivity|]. split; [reflexivity|]. split; [exact V|]. split; [exact V|]. split; [reflexivity|]. split.
    - intro E. apply (f_equal vs) in E. rewrite EV, (ol_zero _ _ _ OL) in E. discriminate E.
    - apply (leftovers_inj CL); try exact V. cbn [s_new_commitment g_new challenges_sq_packed_new y_new].
      assert (SP : same_point (c_one : C) c_one) by (destruct V as [A HA]; exists A; split; exact HA).
      split; [exact SP|]. split; [exact SP|]. constructor; [|constructor; [reflexivity|constructor]].
      unfold same_low. destruct (fl_to_bytes _ _ _ SL fzero) as (_ & _ & ->). destruct (fl_to_bytes _ _ _ SL (fz (2 ^ 128))) as (_ & _ & ->).
      rewrite EV, (ol_zero _ _ _ OL). reflexivity.
  Qed.
End Ambiguous.
