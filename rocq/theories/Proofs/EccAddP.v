(** The addition gadgets of ecc.rs. *)
From Coq Require Import String List Bool ZArith Lia Ring Field.
From Verif Require Import Lib.AbGroup Model.FieldTrait Model.Circuits Model.Num Model.Boolean Model.Curve Model.Ecc
  Spec.FieldLaws Spec.CircuitSpec Spec.NumSpec Spec.BoolSpec Spec.CurveSpec Spec.CheatSpec Spec.CurveLaws Spec.UtilSpec Spec.EccSpec
  Proofs.FieldGen Proofs.CircuitP Proofs.LcP Proofs.NumP Proofs.BoolP Proofs.CurveTop Proofs.EccP.
Import ListNotations.
Open Scope list_scope. Open Scope type_scope.

Section EccAddP.
  Context {C : Curve} {q vb r vs} (CL : CurveLaws C q vb r vs) (one : Var).
  Notation F := (Base C).
  Let FL : FieldLaws F q vb := cl_base _ _ _ _ _ CL.
  Let OL : OpsLaws F q vb := fl_ops _ _ _ FL.
  Add Field Ff : (ffield OL).
  Variable w : assignment F.
  Hypothesis w_one : w one = fone.
  Notation onc := (on_curve (c_b C)).
  Ltac lcg := ecc_lcg OL w.
  Ltac lcs := lcg; ring.
  Ltac lch H := ecc_lch OL w H; rewrite ?w_one in H.
  Ltac enf := eapply complete_enforce_k; [first [lcs|idtac]|]; cbv beta iota zeta.
  Ltac ssteps0 := unfold num_alloc; repeat sstep;
    repeat match goal with H : lc_val w _ = fzero |- _ => lch H end; eqz OL.

  Lemma sound_true {X} (m : CS F X) : sound w m (fun _ => True). Proof. intros tr a _ _. exact I. Qed.
  (** Points whose chord is not vertical *)
  Definition chordal (A B : point F) : Prop := finite A /\ finite B /\ A <> B /\ A <> opposite B.
  Lemma chord_sum A B S : onc A -> onc B -> sum_of A B S -> chordal A B ->
    abscissa A <> abscissa B /\ finite S /\
    forall l, fmul l (fsub (abscissa B) (abscissa A)) = fsub (ordinate B) (ordinate A) ->
      abscissa S = fsub (fsub (fmul l l) (abscissa A)) (abscissa B) /\
      ordinate S = fsub (fmul l (fsub (abscissa A) (abscissa S))) (ordinate A).
  Proof.
    intros HA HB HS (FA & FB & N1 & N2).
    assert (NX : abscissa A <> abscissa B).
    { intro E. destruct (same_abscissa CL A B HA HB FA FB E); auto. }
    split; [exact NX|].
    destruct A as [[x1 y1]|]; [|elim FA; reflexivity]. destruct B as [[x2 y2]|]; [|elim FB; reflexivity]. cbn [abscissa ordinate] in *.
    split.
    - intros ->. inversion HS; subst. apply NX. reflexivity.
    - intros l Hl. rewrite (sum_fun CL _ _ _ _ HA HB HS (sum_chord x1 y1 x2 y2 l NX Hl)). split; reflexivity.
  Qed.
  Lemma chord_inverse A B S : onc A -> onc B -> sum_of A B S -> chordal A B ->
    exists i, f_invert (fsub (abscissa B) (abscissa A)) = Some i /\
      fmul i (fsub (abscissa B) (abscissa A)) = fone /\ at_infinity S = false /\ at_infinity A = false /\ at_infinity B = false /\
      let l := fmul i (fsub (ordinate B) (ordinate A)) in
      fmul (fsub (abscissa B) (abscissa A)) l = fsub (ordinate B) (ordinate A) /\
      fsub (fsub (fmul l l) (abscissa A)) (abscissa B) = abscissa S /\
      fsub (fmul l (fsub (abscissa A) (abscissa S))) (ordinate A) = ordinate S.
  Proof.
    intros HA HB HS HC. destruct (chord_sum A B S HA HB HS HC) as (NX & FS & HL).
    destruct (invert_some CL (fsub (abscissa B) (abscissa A))) as (i & E & Hi).
    { intro E. apply NX. symmetry. apply (proj1 (fsub_zero OL _ _)). exact E. }
    exists i. split; [exact E|]. split; [exact Hi|].
    assert (El : fmul (fsub (abscissa B) (abscissa A)) (fmul i (fsub (ordinate B) (ordinate A))) = fsub (ordinate B) (ordinate A)).
    { transitivity (fmul (fmul i (fsub (abscissa B) (abscissa A))) (fsub (ordinate B) (ordinate A))); [ring|]. rewrite Hi. ring. }
    destruct (HL (fmul i (fsub (ordinate B) (ordinate A)))) as [E1 E2]; [rewrite <- El at 2; ring|].
    destruct HC as (FA & FB & _).
    split; [destruct S; [reflexivity|elim FS; reflexivity]|]. split; [destruct A; [reflexivity|elim FA; reflexivity]|].
    split; [destruct B; [reflexivity|elim FB; reflexivity]|]. cbv zeta. split; [exact El|]. split; symmetry; assumption.
  Qed.
  Lemma fsub_diag (x : F) : fsub x x = fzero. Proof. ring. Qed.

  (** ** add_incomplete *)
  Lemma add_incomplete_complete P Q A B S : cp_has w P A -> cp_has w Q B -> sum_of A B S ->
    (A = infinity /\ B = infinity) \/ chordal A B ->
    complete w (cp_add_incomplete one P Q) (fun R => cp_has w R S).
  Proof.
    intros HP HQ HS HC. destruct (cp_parts CL one w w_one P A HP) as (HA & VX & VY & VI & LX & LY & BI & LI).
    destruct (cp_parts CL one w w_one Q B HQ) as (HB & VX2 & VY2 & VI2 & LX2 & LY2 & BI2 & LI2).
    assert (HO : onc S) by exact (sum_on CL _ _ _ HA HB HS).
    assert (HL : exists l, match f_invert (fsub (abscissa B) (abscissa A)) with
        | Some inv => Ok (fmul inv (fsub (ordinate B) (ordinate A)))
        | None => match Some (at_infinity A) with Some true => Ok fzero | _ => Err DivisionByZero end end = Ok l
      /\ fmul (fsub (abscissa B) (abscissa A)) l = fsub (ordinate B) (ordinate A)
      /\ fsub (fsub (fmul l l) (abscissa A)) (abscissa B) = abscissa S
      /\ fsub (fmul l (fsub (abscissa A) (abscissa S))) (ordinate A) = ordinate S /\ at_infinity S = at_infinity A).
    { destruct HC as [[-> ->]|HC].
      - assert (E : S = None) by (apply (sum_fun CL _ _ _ _ HA HB HS); constructor). subst S. cbn [abscissa ordinate at_infinity infinity].
        rewrite fsub_diag, (invert_none CL). exists fzero. repeat split; ring.
      - destruct (chord_inverse A B S HA HB HS HC) as (i & -> & Hi & I1 & I2 & I3 & E1 & E2 & E3). rewrite I2.
        eexists. split; [reflexivity|]. rewrite I1. auto. }
    destruct HL as (l & EL & H1 & H2 & H3 & H4).
    unfold cp_add_incomplete. rewrite VX, VY, VI, VX2, VY2. rewrite EL. cbn [rbind ok_or_missing]. rewrite H2, H3.
    allocs. mul ltac:(exact H1). enf. enf. mul ltac:(rewrite <- H2; ring). enf. enf.
    mul ltac:(rewrite <- H3; ring). enf. enf.
    apply complete_ret. apply (cp_has_intro CL); try assumption; try reflexivity; rewrite H4; assumption.
  Qed.
  (** Same abscissa, not the identity: no witness is computed *)
  Lemma add_incomplete_division P Q : n_value (cp_x P) <> None -> n_value (cp_y P) <> None -> n_value (cp_y Q) <> None ->
    n_value (cp_x Q) = n_value (cp_x P) -> bool_value (cp_id P) <> Some true ->
    forall tr r, Exec (cp_add_incomplete one P Q) tr r -> witnessed w tr -> r = Some (Err DivisionByZero).
  Proof.
    intros N1 N2 N3 N4 N5 tr r' H W. unfold cp_add_incomplete in H. rewrite N4 in H. destruct (n_value (cp_x P)) as [x|]; [|elim N1; reflexivity].
    destruct (n_value (cp_y P)) as [y|]; [|elim N2; reflexivity]. destruct (n_value (cp_y Q)) as [y'|]; [|elim N3; reflexivity].
    rewrite fsub_diag, (invert_none CL) in H.
    assert (E : match bool_value (cp_id P) with Some true => Ok (fzero : F) | _ => Err DivisionByZero end = Err DivisionByZero).
    { destruct (bool_value (cp_id P)) as [[|]|]; [elim N5; reflexivity|reflexivity|reflexivity]. }
    rewrite E in H. clear E. cbn in H. inversion H as [| | | | | | | | | | | | | | |s0 k0 tr0 r0 H1 E1 E2 E3|]; subst. clear H.
    inversion H1; subst; inversion W as [|e0 t0 W1 W2]; subst; try contradiction W1.
    match goal with H : Exec _ tr0 r' |- _ => cbn in H; inversion H; subst; clear H end.
    match goal with H : Exec _ tr0 r' |- _ => inversion H; subst end. reflexivity.
  Qed.

  (** ** double_and_add_incomplete *)
  Lemma dbl_add_complete P Q A B D S : cp_has w P A -> cp_has w Q B -> sum_of A B D -> sum_of A D S ->
    (A = infinity /\ B = infinity) \/ (chordal A B /\ D <> opposite A) ->
    complete w (cp_double_and_add_incomplete one P Q) (fun R => cp_has w R S).
  Proof.
    intros HP HQ HD HS HC. destruct (cp_parts CL one w w_one P A HP) as (HA & VX & VY & VI & LX & LY & BI & LI).
    destruct (cp_parts CL one w w_one Q B HQ) as (HB & VX2 & VY2 & VI2 & LX2 & LY2 & BI2 & LI2).
    assert (HOD : onc D) by exact (sum_on CL _ _ _ HA HB HD).
    assert (HO : onc S) by exact (sum_on CL _ _ _ HA HOD HS).
    set (ni := match Some (at_infinity A), Some (at_infinity B) with
               | Some true, Some true => Ok fzero | _, _ => Err DivisionByZero end : res F).
    assert (HL : exists l1 l2, match f_invert (fsub (abscissa B) (abscissa A)) with
        | Some inv => Ok (fmul inv (fsub (ordinate B) (ordinate A))) | None => ni end = Ok l1
      /\ fmul (fsub (abscissa B) (abscissa A)) l1 = fsub (ordinate B) (ordinate A)
      /\ fsub (fsub (fmul l1 l1) (abscissa A)) (abscissa B) = abscissa D
      /\ match f_invert (fsub (abscissa A) (abscissa D)) with
         | Some inv => Ok (fsub (fmul inv (fadd (ordinate A) (ordinate A))) l1) | None => ni end = Ok l2
      /\ fmul (fsub (abscissa A) (abscissa D)) (fadd l1 l2) = fadd (ordinate A) (ordinate A)
      /\ fsub (fsub (fmul l2 l2) (abscissa D)) (abscissa A) = abscissa S
      /\ fsub (fmul l2 (fsub (abscissa A) (abscissa S))) (ordinate A) = ordinate S /\ at_infinity S = at_infinity A).
    { destruct HC as [[-> ->]|[HC HN]].
      - assert (E : D = None) by (apply (sum_fun CL _ _ _ _ HA HB HD); constructor). subst D.
        assert (E : S = None) by (apply (sum_fun CL _ _ _ _ HA HA HS); constructor). subst S.
        subst ni. cbn [abscissa ordinate at_infinity infinity]. rewrite fsub_diag, (invert_none CL). exists fzero, fzero. repeat split; ring.
      - destruct (chord_sum A B D HA HB HD HC) as (NX & FD & _).
        destruct (chord_inverse A B D HA HB HD HC) as (i & -> & Hi & I1 & I2 & I3 & E1 & E2 & E3).
        set (l1 := fmul i (fsub (ordinate B) (ordinate A))) in *.
        assert (HC2 : chordal A D).
        { destruct HC as (FA & FB & N1 & N2). split; [exact FA|]. split; [exact FD|]. split.
          - intros E. subst D. destruct (cl_onto _ _ _ _ _ CL A HA) as (g & Eg). destruct (cl_onto _ _ _ _ _ CL B HB) as (h & Eh).
            subst A B. apply (cl_sum _ _ _ _ _ CL) in HD. apply (cl_inj _ _ _ _ _ CL) in HD. apply FB.
            rewrite <- (cl_infinity _ _ _ _ _ CL). f_equal. apply (gp_cancel_l _ _ g). rewrite <- HD, gp_0_r. reflexivity.
          - intros E. apply HN. rewrite E. destruct D as [[xd yd]|]; cbn [opposite]; [|reflexivity]. do 2 f_equal. ring. }
        destruct (chord_sum A D S HA HOD HS HC2) as (NX2 & FS & HL2).
        destruct (invert_some CL (fsub (abscissa A) (abscissa D))) as (j & -> & Hj).
        { intro E. apply NX2. apply (proj1 (fsub_zero OL _ _)). exact E. }
        set (l2 := fsub (fmul j (fadd (ordinate A) (ordinate A))) l1).
        assert (E4 : fmul (fsub (abscissa A) (abscissa D)) (fadd l1 l2) = fadd (ordinate A) (ordinate A)).
        { unfold l2. transitivity (fmul (fmul j (fsub (abscissa A) (abscissa D))) (fadd (ordinate A) (ordinate A))); [ring|]. rewrite Hj. ring. }
        destruct (HL2 l2) as [E5 E6].
        { rewrite <- E3. transitivity (fsub (fmul l1 (fsub (abscissa A) (abscissa D))) (fmul (fsub (abscissa A) (abscissa D)) (fadd l1 l2))); [ring|]. rewrite E4. ring. }
        exists l1, l2. repeat split; auto; [rewrite E5; ring|]. rewrite I2. destruct S; [reflexivity|elim FS; reflexivity]. }
    destruct HL as (l1 & l2 & EL1 & H1 & H2 & EL2 & H3 & H4 & H5 & H6).
    unfold cp_double_and_add_incomplete. rewrite VX, VY, VI, VX2, VY2, VI2. cbv zeta. fold ni.
    cbn [rbind ok_or_missing]. rewrite EL1. cbn [rbind]. rewrite H2, EL2. cbn [rbind]. rewrite H4. cbn [rbind]. rewrite H5.
    allocs. mul ltac:(exact H1). enf. enf. mul ltac:(rewrite <- H2; ring). enf. enf.
    mul ltac:(rewrite <- H4; ring). enf. enf. mul ltac:(exact H3). enf. enf. enf.
    mul ltac:(rewrite <- H5; ring). enf. enf. enf.
    apply complete_ret. apply (cp_has_intro CL); try assumption; try reflexivity; rewrite H6; assumption.
  Qed.
  Lemma dbl_add_sound P Q A B D S : cp_is w P A -> cp_is w Q B -> finite A -> finite B -> A <> B ->
    sum_of A B D -> sum_of A D S -> sound w (cp_double_and_add_incomplete one P Q) (fun R => cp_is w R S).
  Proof.
    intros HP HQ FA FB NAB HD HS. destruct (cp_is_parts CL one w w_one P A HP) as (HA & LX & LY & BI & LI).
    destruct (cp_is_parts CL one w w_one Q B HQ) as (HB & LX2 & LY2 & BI2 & LI2).
    assert (HOD : onc D) by exact (sum_on CL _ _ _ HA HB HD).
    assert (HO : onc S) by exact (sum_on CL _ _ _ HA HOD HS).
    unfold cp_double_and_add_incomplete. ssteps0.
    assert (HY : fadd (ordinate A) (ordinate A) <> fzero).
    { apply (double_nonzero CL). intro E. apply FA. exact (ordinate_zero CL A HA E). }
    assert (NOP : A <> opposite B).
    { intro E. apply HY. assert (EX : abscissa A = abscissa B) by (rewrite E; destruct B as [[]|]; reflexivity).
      assert (EY : ordinate B = fneg (ordinate A)) by (rewrite E; destruct B as [[]|]; cbn; ring).
      rewrite EX, EY in *. transitivity (fneg (fsub (fneg (ordinate A)) (ordinate A))); [ring|]. rewrite H1, <- H, <- H0. ring. }
    destruct (chord_sum A B D HA HB HD) as (NX & FD & HL); [repeat split; assumption|].
    destruct (HL (w b)) as [E1 E2]; [rewrite H1, <- H, <- H0; ring|]. clear HL.
    assert (E3 : w a2 = fsub (abscissa A) (abscissa D)) by (rewrite <- H9, <- H2, <- H3, <- H4, E1; ring).
    assert (NX2 : abscissa A <> abscissa D).
    { intro E. apply HY. rewrite H11, <- H8, E3, E. ring. }
    destruct (chord_sum A D S HA HOD HS) as (_ & FS & HL).
    { split; [exact FA|]. split; [exact FD|]. split; intro E; apply NX2; rewrite E; [reflexivity|]. destruct D as [[]|]; reflexivity. }
    destruct (HL (w a1)) as [E5 E6].
    { rewrite E2. transitivity (fsub (fmul (w b) (fsub (abscissa A) (abscissa D))) (fadd (fmul (w a2) (w b2)) fzero)); [rewrite E3, <- H10; ring|].
      rewrite H8, <- H11. ring. }
    assert (EX : w x = abscissa S).
    { rewrite E5. transitivity (fsub (fsub (fsub (fadd (w x) (w c0)) (abscissa B)) (fsub (w c0) (abscissa B))) fzero); [ring|].
      rewrite H7, <- H5, <- H6, <- H2, <- H3, <- H4, E1. ring. }
    apply (cp_is_intro CL); [exact HO|exact EX| |].
    - rewrite E6, <- EX, H13. transitivity (fsub (fadd (ordinate A) (w x0)) (ordinate A)); [ring|].
      rewrite H15, <- H12, H14. ring.
    - replace (at_infinity S) with (at_infinity A); [exact BI|]. destruct A; [|elim FA; reflexivity]. destruct S; [reflexivity|elim FS; reflexivity].
  Qed.

  (** ** add_conditionally_incomplete *)
  Lemma from_xy_parts A : onc A -> exists p : C, c_from_xy (abscissa A) (ordinate A) = Some p /\ represents p A.
  Proof.
    destruct A as [[x y]|]; intro H; cbn [abscissa ordinate].
    - destruct (proj1 (from_xy_top CL x y) H) as (p & E & Hp & _). exists p. split; assumption.
    - destruct (proj1 (proj2 (from_xy_top CL fzero fzero)) (conj eq_refl eq_refl)) as (p & E & Hp). exists p. split; assumption.
  Qed.
  Lemma complete_unwrap_k {X Y} (o : option X) (x : X) (k : X -> CS F Y) Q : o = Some x -> complete w (k x) Q ->
    complete w (bind (unwrap o) k) Q.
  Proof. intros -> H. exact H. Qed.
  Lemma get_point_k {Y} P A (k : option C -> CS F Y) Q : cp_has w P A -> finite A ->
    (forall p, represents p A -> complete w (k (Some p)) Q) -> complete w (bind (get_point_unwrap P) k) Q.
  Proof.
    intros HP FA H. destruct (cp_parts CL one w w_one P A HP) as (HA & VX & VY & VI & _). unfold get_point_unwrap, cp_get_point.
    rewrite VX, VY, VI. destruct A as [[x y]|]; [|elim FA; reflexivity]. cbn [at_infinity].
    destruct (from_xy_parts _ HA) as (p & E & Hp). apply complete_assoc. apply (complete_unwrap_k _ p); [exact E|]. apply complete_ret_k. apply H, Hp.
  Qed.
  Definition pick_point (b : bool) (S A : point F) : point F := if b then S else A.
  Lemma pick_x b S A : abscissa (pick_point b S A) = if b then abscissa S else abscissa A. Proof. destruct b; reflexivity. Qed.
  Lemma pick_y b S A : ordinate (pick_point b S A) = if b then ordinate S else ordinate A. Proof. destruct b; reflexivity. Qed.

  Lemma add_cond_inc_complete P Q A B S c b : cp_has w P A -> cp_has w Q B -> bool_has w c b -> sum_of A B S -> chordal A B ->
    complete w (cp_add_conditionally_incomplete one P Q c) (fun R => cp_has w R (pick_point b S A)).
  Proof.
    intros HP HQ [HB1 HB2] HS HC. destruct (cp_parts CL one w w_one P A HP) as (HA & VX & VY & VI & LX & LY & BI & LI).
    destruct (cp_parts CL one w w_one Q B HQ) as (HB & VX2 & VY2 & VI2 & LX2 & LY2 & BI2 & LI2).
    assert (HO : onc S) by exact (sum_on CL _ _ _ HA HB HS).
    pose proof (bool_lc1_val FL one w w_one c b HB1) as LB.
    destruct (chord_sum A B S HA HB HS HC) as (_ & FS & _).
    destruct (chord_inverse A B S HA HB HS HC) as (i & Ei & Hi & I1 & I2 & I3 & E1 & E2 & E3). cbv zeta in E1, E2, E3.
    unfold cp_add_conditionally_incomplete.
    apply (get_point_k P A); [exact HP|apply HC|]. intros p1 R1. apply (get_point_k Q B); [exact HQ|apply HC|]. intros p2 R2.
    apply complete_assoc. apply (complete_unwrap_k _ (abscissa S, ordinate S)).
    { rewrite (cl_get_xy _ _ _ _ _ CL _ _ (proj2 (add_top CL p1 p2 A B R1 R2) S HS)). destruct S as [[]|]; [reflexivity|elim FS; reflexivity]. }
    apply complete_ret_k. rewrite VX, VY, VX2, VY2, HB2. cbn [omap2 rbind ok_or_missing fst snd option_map]. rewrite Ei. cbn [option_map rbind].
    set (l := fmul i (fsub (ordinate B) (ordinate A))) in *.
    assert (EO : (if b then Some (abscissa S, ordinate S) else Some (abscissa A, ordinate A)) = Some (abscissa (pick_point b S A), ordinate (pick_point b S A))) by (destruct b; reflexivity).
    rewrite EO. cbn [rbind ok_or_missing fst snd]. rewrite !(fb_of_bit FL).
    allocs. mul ltac:(exact E1). enf. enf. mul ltac:(reflexivity). enf. enf. mul ltac:(reflexivity). enf. enf. { lcg. rewrite <- E2. ring. }
    mul ltac:(reflexivity). enf. enf.
    mul ltac:(destruct b; cbn [of_bit pick_point]; ring). enf. enf. enf.
    mul ltac:(destruct b; cbn [of_bit pick_point]; ring). enf. enf. { lcg. rewrite <- E3. ring. } enf.
    apply complete_ret. apply (cp_has_intro CL); try assumption; try reflexivity; destruct b; cbn [pick_point bool_is bool_value]; congruence.
  Qed.
  Lemma add_cond_inc_sound P Q A B S c b : cp_is w P A -> cp_is w Q B -> bool_is w c b -> sum_of A B S ->
    finite A -> finite B -> A <> B ->
    sound w (cp_add_conditionally_incomplete one P Q c) (fun R => cp_is w R (pick_point b S A)).
  Proof.
    intros HP HQ HC HS FA FB NAB. destruct (cp_is_parts CL one w w_one P A HP) as (HA & LX & LY & BI & LI).
    destruct (cp_is_parts CL one w w_one Q B HQ) as (HB & LX2 & LY2 & BI2 & LI2).
    assert (HO : onc S) by exact (sum_on CL _ _ _ HA HB HS).
    pose proof (bool_lc1_val FL one w w_one c b HC) as LB.
    unfold cp_add_conditionally_incomplete.
    eapply sound_bind; [apply sound_true|]. intros p1 _. eapply sound_bind; [apply sound_true|]. intros p2 _.
    eapply sound_bind; [apply sound_true|]. intros p3 _. ssteps0.
    assert (HY : fadd (ordinate A) (ordinate A) <> fzero).
    { apply (double_nonzero CL). intro E. apply FA. exact (ordinate_zero CL A HA E). }
    assert (NOP : A <> opposite B).
    { intro E. apply HY. assert (EX : abscissa A = abscissa B) by (rewrite E; destruct B as [[]|]; reflexivity).
      assert (EY : ordinate B = fneg (ordinate A)) by (rewrite E; destruct B as [[]|]; cbn; ring).
      rewrite EX, EY in *. transitivity (fneg (fsub (fneg (ordinate A)) (ordinate A))); [ring|]. rewrite H1, <- H, <- H0. ring. }
    destruct (chord_sum A B S HA HB HS) as (NX & FD & HL); [repeat split; assumption|].
    destruct (HL (w b0)) as [E1 E2]; [rewrite H1, <- H, <- H0; ring|]. clear HL.
    assert (E3 : w b2 = abscissa S) by (rewrite <- H7, <- H2, <- H3, <- H4, E1; ring).
    apply (cp_is_intro CL).
    - destruct b; assumption.
    - rewrite pick_x. transitivity (fadd (fsub (w x) (abscissa A)) (abscissa A)); [ring|]. rewrite H14, <- H11, <- H12, <- H13, E3.
      destruct b; cbn [of_bit]; ring.
    - rewrite pick_y. transitivity (fadd (fsub (w x0) (ordinate A)) (ordinate A)); [ring|].
      rewrite H18, <- H15, <- H16, <- H17, <- H8, <- H5, <- H9, <- H6, <- H10, E3, E2. destruct b; cbn [of_bit]; ring.
    - cbn [bool_is]. destruct b; cbn [pick_point]; [destruct S; [reflexivity|elim FD; reflexivity]|destruct A; [reflexivity|elim FA; reflexivity]].
  Qed.

  (** ** add *)
  Lemma point_unwrap_k {Y} A (k : option C -> CS F Y) Q : onc A ->
    (forall p, represents p A -> complete w (k (Some p)) Q) -> complete w (bind (point_unwrap (Some (abscissa A)) (Some (ordinate A))) k) Q.
  Proof.
    intros HA H. destruct (from_xy_parts _ HA) as (p & E & Hp). unfold point_unwrap. apply complete_assoc.
    apply (complete_unwrap_k _ p); [exact E|]. apply complete_ret_k. apply H, Hp.
  Qed.
  Lemma from_u64_3' : f_from_u64 3 = fadd (fadd fone fone) fone :> F. Proof. exact (from_u64_3 CL). Qed.
  (** The constraints hold for every point S of the curve, if none of A and B is the
      point at infinity, and S is only if the ordinates cancel. *)
  Lemma add_with_complete sum P Q A B S : cp_has w P A -> cp_has w Q B -> onc S ->
    (at_infinity S = true -> fadd (ordinate B) (ordinate A) = fzero) -> (at_infinity A = true -> S = B) -> (at_infinity B = true -> S = A) ->
    (forall p1 p2, represents p1 A -> represents p2 B -> represents (sum p1 p2) S) ->
    complete w (cp_add_with one sum P Q) (fun R => cp_has w R S).
  Proof.
    intros HP HQ HO EZ E1 E2 HS. destruct (cp_parts CL one w w_one P A HP) as (HA & VX & VY & VI & LX & LY & BI & LI).
    destruct (cp_parts CL one w w_one Q B HQ) as (HB & VX2 & VY2 & VI2 & LX2 & LY2 & BI2 & LI2).
    assert (EY : ordinate A = fzero -> abscissa A = fzero).
    { intro E. rewrite (ordinate_zero CL A HA E). reflexivity. }
    assert (ES : at_infinity S = true -> abscissa S = fzero /\ ordinate S = fzero).
    { intro E. destruct S; [discriminate E|]. split; reflexivity. }
    unfold cp_add_with. rewrite VX, VY, VX2, VY2.
    apply (point_unwrap_k A); [exact HA|]. intros p1 R1. apply (point_unwrap_k B); [exact HB|]. intros p2 R2.
    cbn [omap2]. rewrite (coords_rep CL _ S (HS p1 p2 R1 R2)). rewrite VI, VI2.
    cbn [omap2 option_map obind rbind ok_or_missing].
    set (x1 := abscissa A) in *. set (y1 := ordinate A) in *. set (x2 := abscissa B) in *. set (y2 := ordinate B) in *.
    rewrite !(fb_of_bit FL).
    assert (EXO : (if at_infinity B then x1 else if at_infinity A then x2 else if at_infinity S then fzero else abscissa S) = abscissa S).
    { destruct (at_infinity B) eqn:F1; [rewrite E2 by reflexivity; reflexivity|]. destruct (at_infinity A) eqn:F2; [rewrite E1 by reflexivity; reflexivity|].
      destruct (at_infinity S); [symmetry; apply ES; reflexivity|reflexivity]. }
    assert (EYO : (if at_infinity B then y1 else if at_infinity A then y2 else if at_infinity S then fzero else ordinate S) = ordinate S).
    { destruct (at_infinity B) eqn:F1; [rewrite E2 by reflexivity; reflexivity|]. destruct (at_infinity A) eqn:F2; [rewrite E1 by reflexivity; reflexivity|].
      destruct (at_infinity S); [symmetry; apply ES; reflexivity|reflexivity]. }
    rewrite EXO, EYO.
    (* equal abscissas or not *)
    set (same := feqb (fsub x2 x1) fzero).
    assert (Hsame : same = true -> fsub x2 x1 = fzero) by (intro E; apply (feqb_eq OL); exact E).
    assert (Hdiff : same = false -> fsub x2 x1 <> fzero) by (intros E E'; unfold same in E; rewrite E', (feqb_refl OL) in E; discriminate E).
    assert (HI : exists i, match f_invert (fsub x2 x1) with Some inv => inv | None => fone end = i /\ fmul (fsub x2 x1) i = fsub fone (of_bit same)).
    { eexists. split; [reflexivity|]. destruct same.
      - rewrite Hsame by reflexivity. rewrite (invert_none CL). cbn [of_bit]. ring.
      - destruct (invert_some CL _ (Hdiff eq_refl)) as (i & -> & Hi). cbn [of_bit]. transitivity (fmul i (fsub x2 x1)); [ring|]. rewrite Hi. ring. }
    destruct HI as (i & -> & Hi).
    assert (HLD : exists ld, match f_invert (fadd (fsub x2 x1) (of_bit same)) with Some inv => fmul inv (fsub y2 y1) | None => fone end = ld
      /\ fmul (fadd (fsub x2 x1) (of_bit same)) ld = fsub y2 y1).
    { eexists. split; [reflexivity|]. destruct (invert_some CL (fadd (fsub x2 x1) (of_bit same))) as (j & -> & Hj).
      - destruct same; cbn [of_bit].
        + rewrite Hsame by reflexivity. intro E. apply (fone_neq_zero OL). rewrite <- E. ring.
        + intro E. apply (Hdiff eq_refl). rewrite <- E. ring.
      - transitivity (fmul (fmul j (fadd (fsub x2 x1) (of_bit same))) (fsub y2 y1)); [ring|]. rewrite Hj. ring. }
    destruct HLD as (ld & -> & Hld).
    set (t3 := fadd (fadd (fmul x1 x1) (fmul x1 x1)) (fmul x1 x1)) in *.
    assert (HLS : exists ls, match f_invert (fadd y1 y1) with Some inv => fmul inv t3 | None => fzero end = ls
      /\ fmul (fadd y1 y1) ls = t3).
    { eexists. split; [reflexivity|]. destruct (feq_dec OL y1 fzero) as [E|E].
      - rewrite E. replace (fadd fzero fzero) with (fzero : F) by ring. rewrite (invert_none CL). unfold t3. rewrite (EY E). ring.
      - destruct (invert_some CL (fadd y1 y1)) as (j & -> & Hj); [apply (double_nonzero CL), E|].
        transitivity (fmul (fmul j (fadd y1 y1)) t3); [ring|]. rewrite Hj. ring. }
    destruct HLS as (ls & -> & Hls).
    assert (EL : (if same then Some ls else Some ld) = Some (if same then ls else ld)) by (destruct same; reflexivity).
    rewrite EL. set (lam := if same then ls else ld) in *. cbn [option_map rbind ok_or_missing].
    allocs. ccall (bit_alloc_complete FL one w (Ok (at_infinity S)) (at_infinity S) eq_refl). intros b3 [B1 B2].
    pose proof B1 as B3. unfold bit_is in B3.
    mul ltac:(destruct same; cbn [of_bit]; [rewrite Hsame by reflexivity|]; ring). enf. enf.
    mul ltac:(exact Hi). enf. enf.
    mul ltac:(reflexivity). enf. enf.
    mul ltac:(exact Hld). enf. enf.
    mul ltac:(exact Hls). enf. enf. { lcg. rewrite from_u64_3'. unfold t3. ring. }
    mul ltac:(reflexivity). enf.
    mul ltac:(unfold lam; destruct same; cbn [of_bit]; ring). enf. enf. enf.
    mul ltac:(reflexivity). enf. enf.
    mul ltac:(destruct (at_infinity S); cbn [of_bit]; [rewrite EZ by reflexivity|]; ring). enf. enf. enf.
    mul ltac:(destruct (at_infinity S); cbn [of_bit negb]; ring). enf. { lcg. destruct (at_infinity S); cbn [of_bit negb]; ring. }
    mul ltac:(destruct (at_infinity S); cbn [of_bit negb]; ring). enf. { lcg. destruct (at_infinity S); cbn [of_bit negb]; ring. }
    mul ltac:(destruct (at_infinity A); cbn [of_bit]; ring). enf. enf.
    mul ltac:(destruct (at_infinity A); cbn [of_bit]; ring). enf. enf.
    mul ltac:(revert EXO; destruct (at_infinity B); intro E0; cbn [of_bit]; rewrite E0; ring). enf. enf. enf.
    mul ltac:(revert EYO; destruct (at_infinity B); intro E0; cbn [of_bit]; rewrite E0; ring). enf. enf. enf.
    apply complete_ret. apply (cp_has_intro CL); try assumption; try reflexivity.
  Qed.

  Lemma add_complete P Q A B S : cp_has w P A -> cp_has w Q B -> sum_of A B S ->
    complete w (cp_add one P Q) (fun R => cp_has w R S).
  Proof.
    intros HP HQ HS. destruct (cp_parts CL one w w_one P A HP) as (HA & _). destruct (cp_parts CL one w w_one Q B HQ) as (HB & _).
    change (cp_add one P Q) with (cp_add_with one c_add P Q). apply (add_with_complete c_add P Q A B S HP HQ).
    - exact (sum_on CL _ _ _ HA HB HS).
    - intro E. destruct S; [discriminate E|]. inversion HS; subst; cbn [ordinate]; ring.
    - intro E. destruct A; [discriminate E|]. apply (sum_fun CL _ _ _ _ HA HB HS). constructor.
    - intro E. destruct B; [discriminate E|]. apply (sum_fun CL _ _ _ _ HA HB HS). constructor.
    - intros p1 p2 R1 R2. exact (proj2 (add_top CL p1 p2 A B R1 R2) S HS).
  Qed.

  (** Choosing between two points with a bit *)
  Lemma add_sound_identity P Q A B S : cp_is w P A -> cp_is w Q B -> sum_of A B S ->
    A = infinity \/ B = infinity -> finite S -> sound w (cp_add one P Q) (fun R => cp_is w R S).
  Proof.
    intros HP HQ HS HI FS. destruct (cp_is_parts CL one w w_one P A HP) as (HA & LX & LY & BI & LI).
    destruct (cp_is_parts CL one w w_one Q B HQ) as (HB & LX2 & LY2 & BI2 & LI2).
    assert (HO : onc S) by exact (sum_on CL _ _ _ HA HB HS).
    assert (HY : fadd (ordinate B) (ordinate A) = ordinate S).
    { destruct HI as [-> | ->]; [rewrite (sum_fun CL _ _ _ _ HA HB HS (sum_infinity_l _))|rewrite (sum_fun CL _ _ _ _ HA HB HS (sum_infinity_r _))]; cbn [ordinate infinity]; ring. }
    assert (HS0 : ordinate S <> fzero) by (intro E; apply FS; exact (ordinate_zero CL S HO E)).
    unfold cp_add. eapply sound_bind; [apply sound_true|]. intros p1 _. eapply sound_bind; [apply sound_true|]. intros p2 _.
    unfold num_alloc. repeat sstep. scall (bit_alloc_sound FL w). intros b3 (x3 & B3). ssteps0.
    assert (E3 : w (bit_var b3) = fzero).
    { rewrite H25. apply (fmul_cancel_r OL) with (c := w a7).
      - rewrite <- H24, HY. exact HS0.
      - transitivity (fmul (w a7) (w b8)); [ring|]. rewrite H23, H26. ring. }
    assert (EX : w x = abscissa S).
    { transitivity (fadd (w c12) (fadd (w c10) (w c8))); [rewrite <- H40; ring|].
      rewrite <- H37, <- H38, <- H39, <- H31, <- H32, <- H33.
      destruct HI as [-> | ->]; [rewrite (sum_fun CL _ _ _ _ HA HB HS (sum_infinity_l _))|rewrite (sum_fun CL _ _ _ _ HA HB HS (sum_infinity_r _))].
      - destruct B as [[]|]; cbn [abscissa infinity at_infinity of_bit]; ring.
      - destruct A as [[]|]; cbn [abscissa infinity at_infinity of_bit]; ring. }
    assert (EY : w x0 = ordinate S).
    { transitivity (fadd (w c13) (fadd (w c11) (w c9))); [rewrite <- H44; ring|].
      rewrite <- H41, <- H42, <- H43, <- H34, <- H35, <- H36.
      destruct HI as [-> | ->]; [rewrite (sum_fun CL _ _ _ _ HA HB HS (sum_infinity_l _))|rewrite (sum_fun CL _ _ _ _ HA HB HS (sum_infinity_r _))].
      - destruct B as [[]|]; cbn [ordinate infinity at_infinity of_bit]; ring.
      - destruct A as [[]|]; cbn [ordinate infinity at_infinity of_bit]; ring. }
    apply (cp_is_intro CL); [exact HO|exact EX|exact EY|]. cbn [bool_is]. unfold bit_is. rewrite E3. destruct S; [reflexivity|elim FS; reflexivity].
  Qed.

  Lemma add_cond_complete P Q A B S c b : cp_has w P A -> cp_has w Q B -> bool_has w c b -> sum_of A B S ->
    complete w (cp_add_conditionally one P Q c) (fun R => cp_has w R (pick_point b S A)).
  Proof.
    intros HP HQ [HB1 HB2] HS. unfold cp_add_conditionally. ccall (add_complete P Q A B S HP HQ HS). intros R HR.
    destruct (cp_parts CL one w w_one P A HP) as (HA & VX & VY & VI & LX & LY & BI & LI).
    destruct (cp_parts CL one w w_one R S HR) as (HO & VX2 & VY2 & VI2 & LX2 & LY2 & BI2 & LI2).
    pose proof (bool_lc1_val FL one w w_one c b HB1) as LB.
    rewrite VX, VY, VI, VX2, VY2, VI2, HB2.
    assert (EO : (if b then (Some (abscissa S), Some (ordinate S), Some (at_infinity S)) else (Some (abscissa A), Some (ordinate A), Some (at_infinity A)))
      = (Some (abscissa (pick_point b S A)), Some (ordinate (pick_point b S A)), Some (at_infinity (pick_point b S A)))) by (destruct b; reflexivity).
    rewrite EO. cbn [rbind ok_or_missing fst snd]. rewrite !(fb_of_bit FL).
    set (O := pick_point b S A) in *. assert (HOO : onc O) by (unfold O; destruct b; assumption).
    allocs. ccall (bit_alloc_complete FL one w (Ok (at_infinity O)) (at_infinity O) eq_refl). intros b3 [B1 B2].
    pose proof B1 as B3. unfold bit_is in B3.
    mul ltac:(unfold O; destruct b; cbn [of_bit pick_point]; ring). enf. enf. enf.
    mul ltac:(unfold O; destruct b; cbn [of_bit pick_point]; ring). enf. enf. enf.
    mul ltac:(unfold O; destruct b; cbn [of_bit pick_point]; ring). enf. enf. enf.
    apply complete_ret. apply (cp_has_intro CL); try assumption; try reflexivity.
  Qed.
  (** The selection of [add_conditionally] is sound given the sum *)

  (** ** multiply *)
  Lemma multiply_step_complete P Q A B D S bit b : cp_has w P A -> cp_has w Q B -> bit_has w bit b ->
    sum_of B B D -> sum_of D A S ->
    complete w (cp_multiply_step one P Q bit) (fun R => cp_has w R (pick_point b S D)).
  Proof.
    intros HP HQ [HB1 HB2] HD HS. unfold cp_multiply_step. ccall (double_complete CL one w w_one Q B D HQ HD). intros R1 HR1.
    ccall (add_complete R1 P D A S HR1 HP HS). intros R2 HR2.
    destruct (cp_parts CL one w w_one R1 D HR1) as (HA & VX & VY & VI & LX & LY & BI & LI).
    destruct (cp_parts CL one w w_one R2 S HR2) as (HO & VX2 & VY2 & VI2 & LX2 & LY2 & BI2 & LI2).
    pose proof HB1 as LB. unfold bit_is in LB.
    rewrite VX, VY, VI, VX2, VY2, VI2, HB2. cbn [obind].
    set (O := pick_point b S D) in *. assert (HOO : onc O) by (unfold O; destruct b; assumption).
    assert (EX : (if b then Some (abscissa S) else Some (abscissa D)) = Some (abscissa O)) by (unfold O; destruct b; reflexivity).
    assert (EY : (if b then Some (ordinate S) else Some (ordinate D)) = Some (ordinate O)) by (unfold O; destruct b; reflexivity).
    assert (EI : (if b then Some (at_infinity S) else Some (at_infinity D)) = Some (at_infinity O)) by (unfold O; destruct b; reflexivity).
    rewrite EX, EY, EI. cbn [rbind ok_or_missing].
    allocs. ccall (bit_alloc_complete FL one w (Ok (at_infinity O)) (at_infinity O) eq_refl). intros b3 [B1 B2].
    pose proof B1 as B3. unfold bit_is in B3. cbn [num_value rbind ok_or_missing]. rewrite B2. cbn [rbind ok_or_missing]. rewrite !(fb_of_bit FL).
    mul ltac:(unfold O; destruct b; cbn [of_bit pick_point]; ring). enf. enf. enf.
    mul ltac:(unfold O; destruct b; cbn [of_bit pick_point]; ring). enf. enf. enf.
    mul ltac:(unfold O; destruct b; cbn [of_bit pick_point]; ring). enf. enf. enf.
    apply complete_ret. apply (cp_has_intro CL); try assumption; try reflexivity.
  Qed.
End EccAddP.
