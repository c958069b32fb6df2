(** The statements of Properties/CurveProps.v from Spec/CurveLaws.v. *)
From Coq Require Import List Bool ZArith Lia.
From Verif Require Import Lib.AbGroup Model.FieldTrait Model.Curve Spec.FieldLaws Spec.CurveSpec Spec.CurveLaws Proofs.FieldGen Proofs.CurveCodeP.
Import ListNotations.
Open Scope Z_scope.

Section Top.
  Context {C : Curve} {q vb r vs} (CL : CurveLaws C q vb r vs).
  Notation G := (cl_group _ _ _ _ _ CL).
  Notation pt := (cl_point _ _ _ _ _ CL).
  Let SO := fl_ops _ _ _ (cl_scalar _ _ _ _ _ CL).
  Let BO := fl_ops _ _ _ (cl_base _ _ _ _ _ CL).
  Definition rep (P : C) (g : G) : Prop := represents P (pt g).

  Lemma rep_on_curve (P : C) A : represents P A -> on_curve (c_b C) A.
  Proof.
    unfold represents. destruct (c_get_xyz P) as [[X Y] Z]. destruct A as [[x y]|]; [tauto|intros _; exact I].
  Qed.
  Lemma rep_ex (P : C) A : represents P A -> exists g, A = pt g /\ rep P g.
  Proof.
    intro H. destruct (cl_onto _ _ _ _ _ CL A (rep_on_curve P A H)) as (g & <-). exists g. split; [reflexivity|exact H].
  Qed.
  Lemma rep_fun (P : C) g h : rep P g -> rep P h -> g = h.
  Proof.
    intros H1 H2. apply (cl_inj _ _ _ _ _ CL).
    rewrite <- (cl_get_xy _ _ _ _ _ CL P _ H1). apply (cl_get_xy _ _ _ _ _ CL P _ H2).
  Qed.
  Lemma represents_fun (P : C) A B : represents P A -> represents P B -> A = B.
  Proof. intros H1 H2. rewrite <- (cl_get_xy _ _ _ _ _ CL P _ H1). apply (cl_get_xy _ _ _ _ _ CL P _ H2). Qed.
  Lemma rep0 : rep c_zero g0.
  Proof. unfold rep. rewrite (cl_infinity _ _ _ _ _ CL). apply cl_rep_zero with (1 := CL). Qed.
  Lemma rep_add P Q g h : rep P g -> rep Q h -> rep (c_add P Q) (gp g h).
  Proof. apply cl_rep_add. Qed.
  Lemma rep_sub P Q g h : rep P g -> rep Q h -> rep (c_sub P Q) (gp g (gn h)).
  Proof. apply cl_rep_sub. Qed.
  Lemma rep_neg P g : rep P g -> rep (c_neg P) (gn g).
  Proof. apply cl_rep_neg. Qed.
  Lemma rep_double P g : rep P g -> rep (c_double P) (gp g g).
  Proof. apply cl_rep_double. Qed.
  Lemma rep_mul P s g : rep P g -> rep (c_mul P s) (zmul (vs s) g).
  Proof. apply cl_rep_mul. Qed.
  Lemma same_rep P Q g h : rep P g -> rep Q h -> g = h -> same_point P Q.
  Proof. intros H1 H2 <-. exists (pt g). split; assumption. Qed.

  Lemma sum_ex A B : on_curve (c_b C) A -> on_curve (c_b C) B -> exists D, sum_of A B D.
  Proof.
    intros HA HB. destruct (cl_onto _ _ _ _ _ CL A HA) as (g & <-). destruct (cl_onto _ _ _ _ _ CL B HB) as (h & <-).
    exists (pt (gp g h)). apply (cl_sum _ _ _ _ _ CL). reflexivity.
  Qed.
  Lemma add_top (P Q : C) A B : represents P A -> represents Q B ->
    (exists D, sum_of A B D) /\ forall D, sum_of A B D -> represents (c_add P Q) D.
  Proof.
    intros HP HQ. split; [apply sum_ex; eapply rep_on_curve; eassumption|]. intros D HD.
    destruct (rep_ex P A HP) as (g & -> & Hg). destruct (rep_ex Q B HQ) as (h & -> & Hh).
    apply (cl_sum _ _ _ _ _ CL) in HD. subst D. apply rep_add; assumption.
  Qed.
  Lemma double_top (P : C) A : represents P A -> forall D, sum_of A A D -> represents (c_double P) D.
  Proof.
    intros HP D HD. destruct (rep_ex P A HP) as (g & -> & Hg). apply (cl_sum _ _ _ _ _ CL) in HD. subst D. apply rep_double; assumption.
  Qed.
  Lemma neg_top (P : C) A : represents P A -> represents (c_neg P) (opposite A).
  Proof.
    intros HP. destruct (rep_ex P A HP) as (g & -> & Hg). rewrite <- (cl_opposite _ _ _ _ _ CL). apply rep_neg, Hg.
  Qed.
  Lemma sub_top (P Q : C) A B : represents P A -> represents Q B ->
    forall D, sum_of A (opposite B) D -> represents (c_sub P Q) D.
  Proof.
    intros HP HQ D HD. destruct (rep_ex P A HP) as (g & -> & Hg). destruct (rep_ex Q B HQ) as (h & -> & Hh).
    rewrite <- (cl_opposite _ _ _ _ _ CL) in HD. apply (cl_sum _ _ _ _ _ CL) in HD. subst D. apply rep_sub; assumption.
  Qed.
  Lemma multiple_top (g : G) n B : multiple (pt g) n B <-> B = pt (zmul (Z.of_nat n) g).
  Proof.
    split.
    - revert B. induction n as [|n IH]; intros B H.
      + inversion H. symmetry. apply (cl_infinity _ _ _ _ _ CL).
      + inversion H as [|m B' C' HM HS]; subst. rewrite Nat2Z.inj_succ, zmul_succ.
        rewrite (IH _ HM) in HS. apply (cl_sum _ _ _ _ _ CL) in HS. exact HS.
    - intros ->. induction n as [|n IH]; [change (pt (zmul (Z.of_nat 0) g)) with (pt g0); rewrite (cl_infinity _ _ _ _ _ CL); constructor|].
      rewrite Nat2Z.inj_succ, zmul_succ. econstructor; [exact IH|]. apply (cl_sum _ _ _ _ _ CL). reflexivity.
  Qed.
  Lemma scalar_vs (s : Scalar C) : Z.of_nat (scalar_nat (C := C) s) = vs s.
  Proof.
    unfold scalar_nat. destruct (fl_to_bytes _ _ _ (cl_scalar _ _ _ _ _ CL) s) as (_ & _ & ->).
    pose proof (ol_range _ _ _ SO s). lia.
  Qed.
  Lemma mul_top (P : C) A (s : Scalar C) : represents P A ->
    (exists D, multiple A (scalar_nat (C := C) s) D) /\ forall D, multiple A (scalar_nat (C := C) s) D -> represents (c_mul P s) D.
  Proof.
    intro HP. destruct (rep_ex P A HP) as (g & -> & Hg). split.
    - eexists. apply multiple_top. reflexivity.
    - intros D HD. apply multiple_top in HD. subst D. rewrite scalar_vs. apply rep_mul, Hg.
  Qed.
  Lemma order_top (P : C) A : represents P A -> multiple A (Z.to_nat r) infinity.
  Proof.
    intro HP. destruct (rep_ex P A HP) as (g & -> & Hg). apply multiple_top. pose proof (ol_odd _ _ _ SO).
    rewrite Z2Nat.id by lia. rewrite (cl_order _ _ _ _ _ CL). symmetry. apply (cl_infinity _ _ _ _ _ CL).
  Qed.
  Lemma valid_ex (P : C) : valid P -> exists g, rep P g.
  Proof. intros (A & H). destruct (rep_ex P A H) as (g & _ & Hg). exists g. exact Hg. Qed.
  Lemma rep_valid (P : C) g : rep P g -> valid P. Proof. intro H. exists (pt g). exact H. Qed.
  Ltac reps := repeat match goal with H : valid ?P |- _ => let g := fresh "g" in let Hg := fresh "Hg" in
    destruct (valid_ex P H) as (g & Hg); clear H end.
  Ltac rsolve := first [eassumption | apply rep0 | eapply rep_add; rsolve | eapply rep_sub; rsolve | eapply rep_neg; rsolve
    | eapply rep_double; rsolve | eapply rep_mul; rsolve].
  Ltac same := reps; eapply same_rep; [rsolve|rsolve|].

  Lemma valid_top : valid (c_zero : C) /\ valid (c_one : C)
    /\ (forall P Q : C, valid P -> valid Q -> valid (c_add P Q) /\ valid (c_sub P Q))
    /\ (forall P : C, valid P -> valid (c_neg P) /\ valid (c_double P) /\ forall s, valid (c_mul P s)).
  Proof.
    split; [exact (rep_valid _ _ rep0)|]. split; [exact (rep_valid _ _ (cl_rep_one _ _ _ _ _ CL))|]. split.
    - intros P Q HP HQ. reps. split; eapply rep_valid; rsolve.
    - intros P HP. reps. split; [eapply rep_valid; rsolve|]. split; [eapply rep_valid; rsolve|]. intro s. eapply rep_valid; rsolve.
  Qed.
  Lemma group_top (P Q R : C) : valid P -> valid Q -> valid R ->
    same_point (c_add (c_add P Q) R) (c_add P (c_add Q R)) /\ same_point (c_add P Q) (c_add Q P)
    /\ same_point (c_add P c_zero) P /\ same_point (c_add c_zero P) P
    /\ same_point (c_add P (c_neg P)) c_zero /\ same_point (c_sub P Q) (c_add P (c_neg Q))
    /\ same_point (c_double P) (c_add P P).
  Proof.
    intros HP HQ HR. repeat match goal with |- _ /\ _ => split end; same; try reflexivity.
    - symmetry. apply gp_assoc.
    - apply gp_comm.
    - apply gp_0_r.
    - apply gp_0_l.
    - apply gp_n_r.
  Qed.
  Lemma same_equiv (P Q R : C) : valid P -> same_point P P /\ (same_point P Q -> same_point Q P)
    /\ (same_point P Q -> same_point Q R -> same_point P R).
  Proof.
    intros (A & HA). split; [exists A; tauto|]. split; [intros (B & H1 & H2); exists B; tauto|].
    intros (B & H1 & H2) (D & H3 & H4). exists D. split; [|exact H4].
    rewrite (represents_fun _ _ _ H3 H2). exact H1.
  Qed.
  Lemma same_cong (P P' Q Q' : C) s : same_point P P' -> same_point Q Q' ->
    same_point (c_add P Q) (c_add P' Q') /\ same_point (c_mul P s) (c_mul P' s).
  Proof.
    intros (A & H1 & H2) (B & H3 & H4). destruct (rep_ex _ _ H1) as (g & -> & Hg). destruct (rep_ex _ _ H3) as (h & -> & Hh).
    split.
    - apply (same_rep _ _ (gp g h) (gp g h)); [apply rep_add; assumption|apply rep_add; assumption|reflexivity].
    - apply (same_rep _ _ (zmul (vs s) g) (zmul (vs s) g)); [apply rep_mul; assumption|apply rep_mul; assumption|reflexivity].
  Qed.
  Lemma zmul_vs_mod z (g : G) : zmul (z mod r) g = zmul z g.
  Proof. apply zmul_mod. apply (cl_order _ _ _ _ _ CL). Qed.
  Lemma action_top (P Q : C) (a b : Scalar C) : valid P -> valid Q ->
    same_point (c_mul P (fadd a b)) (c_add (c_mul P a) (c_mul P b))
    /\ same_point (c_mul P (fmul a b)) (c_mul (c_mul P a) b)
    /\ same_point (c_mul (c_add P Q) a) (c_add (c_mul P a) (c_mul Q a))
    /\ same_point (c_mul P fone) P /\ same_point (c_mul P fzero) c_zero
    /\ same_point (c_mul P (fneg a)) (c_neg (c_mul P a)).
  Proof.
    intros HP HQ. repeat match goal with |- _ /\ _ => split end; same.
    - rewrite (ol_add _ _ _ SO), zmul_vs_mod, zmul_add. reflexivity.
    - rewrite (ol_mul _ _ _ SO), zmul_vs_mod, Z.mul_comm, zmul_mul. reflexivity.
    - apply zmul_gp.
    - rewrite (ol_one _ _ _ SO). apply zmul_1.
    - rewrite (ol_zero _ _ _ SO). reflexivity.
    - rewrite (ol_neg _ _ _ SO), zmul_vs_mod, zmul_opp. reflexivity.
  Qed.
  Lemma generated_top (P : C) : valid P -> exists s, same_point P (c_mul c_one s).
  Proof.
    intro HP. reps. destruct (cl_cyclic _ _ _ _ _ CL g) as (k & Hk & ->).
    destruct (ol_surj _ _ _ SO k Hk) as (s & Hs). exists s. eapply same_rep; [eassumption|apply rep_mul; apply (cl_rep_one _ _ _ _ _ CL)|].
    rewrite Hs. reflexivity.
  Qed.
  Lemma faithful_top (s t : Scalar C) : same_point (c_mul (c_one : C) s) (c_mul c_one t) -> s = t.
  Proof.
    intros (A & H1 & H2). destruct (rep_ex _ _ H1) as (g & -> & Hg). 
    pose proof (rep_mul c_one s _ (cl_rep_one _ _ _ _ _ CL)) as R1. pose proof (rep_mul c_one t _ (cl_rep_one _ _ _ _ _ CL)) as R2.
    assert (E : zmul (vs s) (cl_gen _ _ _ _ _ CL) = zmul (vs t) (cl_gen _ _ _ _ _ CL)).
    { transitivity g; [exact (rep_fun _ _ _ R1 Hg)|symmetry; exact (rep_fun _ _ _ R2 H2)]. }
    apply (ol_inj _ _ _ SO). 
    apply (zmul_g_inj r (cl_gen _ _ _ _ _ CL)); [exact (ol_prime _ _ _ SO)|apply (cl_order _ _ _ _ _ CL)|apply (cl_gen_nonzero _ _ _ _ _ CL)
      |apply (ol_range _ _ _ SO)|apply (ol_range _ _ _ SO)|exact E].
  Qed.
  Lemma endo_top (P : C) x y : represents P (Some (x, y)) ->
    represents (c_mul P (BETA_SCALAR C)) (Some (fmul (BETA_BASE C) x, y)).
  Proof.
    intro H. destruct (rep_ex P _ H) as (g & E & Hg). rewrite <- (cl_endo _ _ _ _ _ CL g x y (eq_sym E)). apply rep_mul, Hg.
  Qed.
  Lemma endo_zero_top (P : C) : represents P infinity -> represents (c_mul P (BETA_SCALAR C)) infinity.
  Proof.
    intro H. destruct (rep_ex P _ H) as (g & E & Hg). rewrite <- (cl_infinity _ _ _ _ _ CL) in E. apply (cl_inj _ _ _ _ _ CL) in E. subst g.
    pose proof (rep_mul P (BETA_SCALAR C) _ Hg) as HR. rewrite zmul_g0 in HR. unfold rep in HR. rewrite (cl_infinity _ _ _ _ _ CL) in HR. exact HR.
  Qed.
  Lemma get_xy_top (P : C) A : represents P A -> c_get_xy P = A /\ on_curve (c_b C) A.
  Proof. intro H. split; [apply (cl_get_xy _ _ _ _ _ CL P A H)|exact (rep_on_curve P A H)]. Qed.
  Lemma from_xy_top x y : (on_curve (c_b C) (Some (x, y)) ->
      exists P : C, c_from_xy x y = Some P /\ represents P (Some (x, y)) /\ c_get_xy P = Some (x, y))
    /\ (x = fzero /\ y = fzero -> exists P : C, c_from_xy x y = Some P /\ represents P infinity)
    /\ (~ on_curve (c_b C) (Some (x, y)) -> ~ (x = fzero /\ y = fzero) -> @c_from_xy C x y = None).
  Proof.
    split; [|split].
    - intro H. exists (c_from_xy_unchecked x y). split; [apply (cl_from_xy _ _ _ _ _ CL); left; tauto|].
      pose proof (cl_from_xy_unchecked _ _ _ _ _ CL x y H) as HR. split; [exact HR|apply (cl_get_xy _ _ _ _ _ CL _ _ HR)].
    - intros [H1 H2]. exists c_zero. split; [apply (cl_from_xy _ _ _ _ _ CL); right; tauto|apply (cl_rep_zero _ _ _ _ _ CL)].
    - intros H1 H2. destruct (@c_from_xy C x y) as [P|] eqn:E; [|reflexivity]. apply (cl_from_xy _ _ _ _ _ CL) in E. tauto.
  Qed.
  Lemma zero_not_on : ~ on_curve (c_b C) (Some (fzero, fzero)).
  Proof.
    cbn [on_curve]. intro H. apply (cl_b_nonsquare _ _ _ _ _ CL fzero). rewrite H.
    apply (ol_inj _ _ _ BO). rewrite (ol_add _ _ _ BO), !(ol_mul _ _ _ BO), (ol_zero _ _ _ BO).
    rewrite Z.mul_0_r, Z.add_0_l. apply Z.mod_small. apply (ol_range _ _ _ BO).
  Qed.
  Lemma one_not_infinity : ~ represents (c_one : C) infinity.
  Proof.
    intro H. pose proof (represents_fun _ _ _ H (cl_rep_one _ _ _ _ _ CL)) as E. apply (cl_gen_nonzero _ _ _ _ _ CL).
    apply (cl_inj _ _ _ _ _ CL). rewrite (cl_infinity _ _ _ _ _ CL). symmetry. exact E.
  Qed.
  Lemma eq_refuted : exists P Q : C, valid P /\ valid Q /\ ~ same_point P Q /\ c_eqb P Q = true /\ c_eqb Q P = false.
  Proof.
    exists c_zero, c_one. pose proof (cl_rep_zero _ _ _ _ _ CL) as H0. pose proof (cl_rep_one _ _ _ _ _ CL) as H1.
    split; [eexists; exact H0|]. split; [eexists; exact H1|].
    assert (N : pt (cl_gen _ _ _ _ _ CL) <> infinity).
    { intro E. apply one_not_infinity. rewrite <- E. exact H1. }
    split; [|split].
    - intros (A & HA & HB). apply N. transitivity A; [exact (represents_fun _ _ _ H1 HB)|exact (represents_fun _ _ _ HA H0)].
    - apply (cl_eqb _ _ _ _ _ CL _ _ _ _ H0 H1). left. reflexivity.
    - destruct (c_eqb c_one c_zero) eqn:E; [|reflexivity]. exfalso.
      apply (cl_eqb _ _ _ _ _ CL _ _ _ _ H1 H0) in E. tauto.
  Qed.
  Lemma tangent_example (P : C) A : represents P (Some A) -> exists D, sum_of (Some A) (Some A) (Some D) /\ represents (c_double P) (Some D).
  Proof.
    intro H. destruct (add_top P P _ _ H H) as [[[D|] HD] _].
    - exists D. split; [exact HD|apply (double_top P _ H _ HD)].
    - exfalso. destruct (rep_ex P _ H) as (g & E & Hg). rewrite E in HD. apply (cl_sum _ _ _ _ _ CL) in HD.
      rewrite <- (cl_infinity _ _ _ _ _ CL : _ = None) in HD. apply (cl_inj _ _ _ _ _ CL) in HD.
      assert (g = g0).
      { rewrite <- (zmul_1 g). pose proof (cl_order _ _ _ _ _ CL g) as HO. 
        pose proof (p_odd (cl_scalar _ _ _ _ _ CL)) as R.
        assert (E2 : zmul (2 * (r / 2) + 1) g = g0) by (replace (2 * (r / 2) + 1) with r by (clear - R; Z.div_mod_to_equations; lia); exact HO).
        rewrite zmul_add, Z.mul_comm, zmul_mul, zmul_2, <- HD, zmul_g0, gp_0_l in E2. exact E2. }
      subst g. rewrite (cl_infinity _ _ _ _ _ CL) in E. discriminate E.
  Qed.
  Lemma other_rep_example (P : C) A : represents P A -> represents (c_sub (c_double P) P) A.
  Proof.
    intro HA. destruct (rep_ex P A HA) as (g & -> & H1). pose proof (rep_sub _ _ _ _ (rep_double _ _ H1) H1) as H.
    rewrite <- gp_assoc, gp_n_r, gp_0_r in H. exact H.
  Qed.
  Lemma decode_example (P : C) A : represents P (Some A) ->
    exists bs Q, length bs = 32%nat /\ Forall byte bs /\ c_from_bytes bs = Some (Q : C) /\ c_is_zero Q = false.
  Proof.
    intro H. destruct (cl_decode_encode _ _ _ _ _ CL P _ H) as (Q & E & HQ). destruct (cl_encode_shape _ _ _ _ _ CL P _ H) as [H1 H2].
    exists (c_to_bytes P), Q. split; [exact H1|]. split; [exact H2|]. split; [exact E|].
    destruct (c_is_zero Q) eqn:EZ; [|reflexivity]. apply (cl_is_zero _ _ _ _ _ CL Q _ HQ) in EZ. discriminate EZ.
  Qed.
End Top.
