(** The gadgets of ecc.rs make the same calls whatever the values are, as long as known
    coordinates are those of curve points. *)
From Coq Require Import String List Bool Arith ZArith Lia Ring.
From Verif Require Import Lib.AbGroup Model.FieldTrait Model.Circuits Model.Num Model.Boolean Model.Curve Model.Util Model.Ecc Model.Recursion
  Spec.FieldLaws Spec.CircuitSpec Spec.CurveSpec Spec.CheatSpec Spec.CurveLaws Spec.EccSpec Spec.UniformSpec
  Proofs.FieldGen Proofs.CurveTop Proofs.EccP Proofs.EccAddP Proofs.EccMulP Proofs.UnpackP Proofs.AlikeP Proofs.AlikeGadgetsP.
Import ListNotations.
Open Scope list_scope. Open Scope nat_scope.

Section Ecc.
  Context {C : Curve} {q vb r vs} (CL : CurveLaws C q vb r vs).
  Notation F := (Base C).
  Let FL : FieldLaws F q vb := cl_base _ _ _ _ _ CL.
  Let OL : OpsLaws F q vb := fl_ops _ _ _ FL.
  Add Ring Fr : (fring OL).
  Variables (inp : Prop) (V : Var -> Prop) (one : Var).
  Hypothesis V1 : V one.
  Local Notation alike := (@alike F inp V _ _).
  Local Notation Rnum := (@Rnum F V). Local Notation RNum := (@RNum F V). Local Notation Rcomb := (@Rcomb F V).
  Local Notation Rbool := (@Rbool V).
  Local Notation Rbit := (same_bit V).
  Notation onc := (on_curve (c_b C)).

  (** known coordinates are those of a curve point *)
  Definition goodv (vx vy : option F) : Prop := forall x y, vx = Some x -> vy = Some y -> exists A, onc A /\ x = abscissa A /\ y = ordinate A.
  Definition good (P : CurvePoint C) : Prop := goodv (n_value (cp_x P)) (n_value (cp_y P)).
  Record Rpoint (P Q : CurvePoint C) : Prop := mkRpoint { rp_x : RNum (cp_x P) (cp_x Q); rp_y : RNum (cp_y P) (cp_y Q); rp_id : Rbool (cp_id P) (cp_id Q); rp_good : good Q }.
  Lemma goodv_none_x o : goodv None o. Proof. intros x y E. discriminate E. Qed.
  Lemma goodv_none_y o : goodv o None. Proof. intros x y _ E. discriminate E. Qed.
  Lemma goodv_point A : onc A -> goodv (Some (abscissa A)) (Some (ordinate A)).
  Proof. intros H x y E1 E2. exists A. split; [exact H|]. split; congruence. Qed.
  Lemma goodv_coords (p : C) : valid p -> exists A, onc A /\ coords_or_zero p = (abscissa A, ordinate A, at_infinity A).
  Proof.
    intros [A HA]. exists A. split; [apply (rep_on_curve _ _ HA)|]. unfold coords_or_zero. rewrite (cl_get_xy _ _ _ _ _ CL _ _ HA).
    destruct A as [[x y]|]; reflexivity.
  Qed.
  Lemma goodv_from_xy x y : goodv (Some x) (Some y) -> exists p : C, c_from_xy x y = Some p /\ valid p.
  Proof.
    intro H. destruct (H x y eq_refl eq_refl) as (A & HA & -> & ->). destruct (from_xy_parts CL A HA) as (p & E & Hp). exists p. split; [exact E|]. exists A. exact Hp.
  Qed.

  Lemma R_const x y : onc (Some (x, y)) -> Rpoint (cp_constant x y) (cp_constant x y).
  Proof. intro H. constructor; [reflexivity|reflexivity|reflexivity|]. exact (goodv_point _ H). Qed.
  Lemma R_identity : Rpoint cp_identity cp_identity.
  Proof. constructor; [reflexivity|reflexivity|reflexivity|]. exact (goodv_point None I). Qed.

  Ltac rp :=
    repeat match goal with H : Rpoint ?P ?Q |- _ => let a := fresh "X" in let b := fresh "Y" in let c := fresh "J" in let d := fresh "G" in
      destruct H as [a b c d]; unfold good in d; let x := fresh "x" in let y := fresh "y" in let i := fresh "i" in let x' := fresh "x'" in let y' := fresh "y'" in let i' := fresh "i'" in destruct P as [x y i]; destruct Q as [x' y' i']; cbn [cp_x cp_y cp_id] in * end.
  Ltac asteps := repeat first [astep | progress cbv beta].

  Lemma A_witness p p' : (forall c, p' = Ok c -> valid c) ->
    alike (fun P Q => Rpoint P Q /\ bool_value (cp_id Q) = None) (cp_witness one p) (cp_witness one p').
  Proof.
    intro Hv. unfold cp_witness. asteps. split; [|reflexivity]. constructor; cbn [cp_x cp_y cp_id]; [rel|rel|rel|].
    unfold good. cbn [cp_x cp_y n_value n_from num_value coeff_mul_f coeff_value option_map].
    destruct p' as [c|e]; [|apply goodv_none_x]. destruct (goodv_coords c (Hv c eq_refl)) as (A & HA & E).
    cbn [rbind] in *. rewrite E in *. exact (goodv_point A HA).
  Qed.
  Lemma A_point_unwrapb {A B} (R : A -> B -> Prop) x y x' y' f g : goodv x' y' ->
    (forall p p', (forall c : C, p' = Some c -> valid c) -> alike R (f p) (g p')) -> alike R (bind (point_unwrap x y) f) (bind (point_unwrap x' y') g).
  Proof.
    intros HG H. assert (HQ : exists p', point_unwrap (C := C) x' y' = ret p' /\ (forall c : C, p' = Some c -> valid c)).
    { unfold point_unwrap. destruct x' as [x'|]; [|exists None; split; [reflexivity|discriminate]]. destruct y' as [y'|]; [|exists None; split; [reflexivity|discriminate]].
      destruct (goodv_from_xy _ _ HG) as (p & E & Hp). rewrite E. exists (Some p). split; [reflexivity|]. intros c Ec. injection Ec as <-. exact Hp. }
    destruct HQ as (p' & EQ & Hp'). rewrite EQ. unfold point_unwrap.
    destruct x as [x|], y as [y|]; try exact (H None p' Hp').
    destruct (c_from_xy x y) as [p|]; [exact (H (Some p) p' Hp')|apply al_panic].
  Qed.
  Lemma goodv_pick b (x x' y y' : option F) : goodv x y -> goodv x' y' ->
    goodv (obind x (fun u => obind x' (fun v => option_map (fun b : bool => if b then u else v) b)))
          (obind y (fun u => obind y' (fun v => option_map (fun b : bool => if b then u else v) b))).
  Proof.
    intros H H' a c E1 E2. destruct x as [x|]; [|discriminate E1]. destruct x' as [x'|]; [|discriminate E1]. destruct y as [y|]; [|discriminate E2]. destruct y' as [y'|]; [|discriminate E2].
    cbn [obind option_map] in *. destruct b as [[|]|]; cbn [option_map] in *; try discriminate E1; injection E1 as <-; injection E2 as <-; [apply H|apply H']; reflexivity.
  Qed.
  Lemma goodv_ok v v' : goodv v v' -> goodv (ok (ok_or_missing v)) (ok (ok_or_missing v')).
  Proof. destruct v, v'; exact (fun H => H). Qed.
  Lemma goodv_opt v v' : goodv v v' -> goodv (option_map (fun v : F => v) v) (option_map (fun v : F => v) v').
  Proof. destruct v, v'; exact (fun H => H). Qed.
  Lemma A_add_with sum sum' P P' Q Q' : Rpoint P P' -> Rpoint Q Q' -> (forall c1 c2, valid c1 -> valid c2 -> valid (sum' c1 c2)) ->
    alike (fun P Q => Rpoint P Q /\ bool_value (cp_id Q) = None) (cp_add_with one sum P Q) (cp_add_with one sum' P' Q').
  Proof.
    intros HP HQ HSum. rp. unfold cp_add_with. cbn [cp_x cp_y cp_id]. cbv zeta.
    apply A_point_unwrapb; [assumption|]. intros p1 p1' H1. apply A_point_unwrapb; [assumption|]. intros p2 p2' H2.
    asteps. split; [|reflexivity]. constructor; cbn [cp_x cp_y cp_id]; [rel|rel|rel|].
    unfold good. cbn [cp_x cp_y n_value n_from num_value coeff_mul_f coeff_value option_map].
    apply goodv_opt, goodv_ok. apply goodv_pick; [assumption|]. apply goodv_pick; [assumption|].
    destruct p1' as [c1|]; [|apply goodv_none_x]. destruct p2' as [c2|]; [|apply goodv_none_x]. cbn [omap2 obind option_map].
    destruct (goodv_coords (sum' c1 c2)) as (A & HA & E); [exact (HSum c1 c2 (H1 c1 eq_refl) (H2 c2 eq_refl))|]. rewrite E. cbn [option_map omap2 obind].
    destruct A as [[? ?]|]; cbn [at_infinity]; [exact (goodv_point _ HA)|exact (goodv_point None I)].
  Qed.
  Lemma valid_add (c1 c2 : C) : valid c1 -> valid c2 -> valid (c_add c1 c2).
  Proof. intros H1 H2. destruct (valid_ex CL _ H1) as [g1 R1]. destruct (valid_ex CL _ H2) as [g2 R2]. exact (rep_valid CL _ _ (rep_add CL _ _ _ _ R1 R2)). Qed.
  Lemma A_add P P' Q Q' : Rpoint P P' -> Rpoint Q Q' ->
    alike (fun P Q => Rpoint P Q /\ bool_value (cp_id Q) = None) (cp_add one P Q) (cp_add one P' Q').
  Proof. intros HP HQ. exact (A_add_with c_add c_add P P' Q Q' HP HQ valid_add). Qed.
  Lemma goodv_double (vx vy : option F) l xd yd : goodv vx vy ->
    l = match vx, vy with
        | Some x_p, Some y_p => match f_invert (fadd y_p y_p) with
            | Some inv_2yp => let xx_p := fmul x_p x_p in Ok (fmul inv_2yp (fadd (fadd xx_p xx_p) xx_p)) | None => Ok fzero end
        | _, _ => Err AssignmentMissing end ->
    xd = match vx with Some x_p => rbind l (fun lambda => Ok (fsub (fsub (fmul lambda lambda) x_p) x_p)) | None => Err AssignmentMissing end ->
    yd = match vx, vy with Some x_p, Some y_p => rbind xd (fun x_dbl => rbind l (fun lambda => Ok (fsub (fmul lambda (fsub x_p x_dbl)) y_p))) | _, _ => Err AssignmentMissing end ->
    goodv (ok xd) (ok yd).
  Proof.
    intros HG El Ex Ey. destruct vx as [x|]; [|subst; apply goodv_none_x]. destruct vy as [y|]; [|subst; apply goodv_none_y].
    destruct (HG x y eq_refl eq_refl) as (A & HA & EA1 & EA2). clear HG.
    destruct (sum_ex CL A A HA HA) as [S HS]. pose proof (sum_on CL _ _ _ HA HA HS) as HO.
    assert (HL : exists l, match f_invert (fadd y y) with
        | Some inv_2yp => Ok (fmul inv_2yp (fadd (fadd (fmul x x) (fmul x x)) (fmul x x)))
        | None => Ok fzero end = Ok l /\ fsub (fsub (fmul l l) x) x = abscissa S
        /\ fsub (fmul l (fsub x (fsub (fsub (fmul l l) x) x))) y = ordinate S).
    { destruct A as [[x0 y0]|].
      - assert (Hy : y <> fzero) by (intro E; subst y; discriminate (ordinate_zero CL _ HA E)).
        destruct (invert_some CL _ (double_nonzero CL y Hy)) as (i & -> & Hi). eexists. split; [reflexivity|].
        assert (E : S = third (fmul i (fadd (fadd (fmul x x) (fmul x x)) (fmul x x))) x y x).
        { cbn in EA1, EA2. subst x0 y0. apply (sum_fun CL _ _ _ _ HA HA HS). apply sum_tangent; [exact Hy|].
          transitivity (fmul (fmul i (fadd y y)) (fadd (fadd (fmul x x) (fmul x x)) (fmul x x))); [ring|rewrite Hi; ring]. }
        rewrite E. cbn. tauto.
      - assert (E : S = None) by (apply (sum_fun CL _ _ _ _ HA HA HS); constructor). subst S. cbn [abscissa ordinate] in EA1, EA2.
        subst x y. cbn [abscissa ordinate]. replace (fadd fzero fzero) with (fzero : F) by ring.
        rewrite (invert_none CL). exists fzero. repeat split; ring. }
    destruct HL as (lam & E1 & E2 & E3). cbv zeta in El. rewrite E1 in El. subst l. cbn [rbind] in Ex. subst xd. cbn [rbind] in Ey. subst yd.
    cbn [ok]. rewrite E3, E2. apply goodv_point, HO.
  Qed.
  Lemma A_double P P' : Rpoint P P' -> alike (fun P Q => Rpoint P Q /\ (forall b, cp_id P' = Constant b -> cp_id Q = Constant b)) (cp_double one P) (cp_double one P').
  Proof.
    intro HP. rp. unfold cp_double. cbn [cp_x cp_y cp_id]. asteps. split; [|auto]. constructor; cbn [cp_x cp_y cp_id]; [rel|rel|rel|].
    unfold good. cbn [cp_x cp_y n_value n_from num_value coeff_mul_f coeff_value option_map].
    apply goodv_opt. eapply goodv_double; [exact G|reflexivity|reflexivity|reflexivity].
  Qed.
  (** without a statement about the values *)
  Record Rp0 (P Q : CurvePoint C) : Prop := mkRp0 { r0_x : RNum (cp_x P) (cp_x Q); r0_y : RNum (cp_y P) (cp_y Q); r0_id : Rbool (cp_id P) (cp_id Q) }.
  Lemma Rp_0 P Q : Rpoint P Q -> Rp0 P Q. Proof. intros []. constructor; assumption. Qed.
  Ltac rp0 :=
    repeat match goal with H : Rp0 ?P ?Q |- _ => let a := fresh "X" in let b := fresh "Y" in let c := fresh "J" in 
      destruct H as [a b c]; let x := fresh "x" in let y := fresh "y" in let i := fresh "i" in let x' := fresh "x'" in let y' := fresh "y'" in let i' := fresh "i'" in destruct P as [x y i]; destruct Q as [x' y' i']; cbn [cp_x cp_y cp_id] in * end.
  Ltac fin0 := constructor; cbn [cp_x cp_y cp_id]; rel.
  Lemma A_double0 P P' : Rp0 P P' -> alike Rp0 (cp_double one P) (cp_double one P').
  Proof. intro HP. rp0. unfold cp_double. cbn [cp_x cp_y cp_id]. asteps. fin0. Qed.
  Lemma A_add_incomplete P P' Q Q' : Rp0 P P' -> Rp0 Q Q' -> alike Rp0 (cp_add_incomplete one P Q) (cp_add_incomplete one P' Q').
  Proof. intros HP HQ. rp0. unfold cp_add_incomplete. cbn [cp_x cp_y cp_id]. asteps. fin0. Qed.
  Lemma A_double_and_add P P' Q Q' : Rp0 P P' -> Rp0 Q Q' -> alike Rp0 (cp_double_and_add_incomplete one P Q) (cp_double_and_add_incomplete one P' Q').
  Proof. intros HP HQ. rp0. unfold cp_double_and_add_incomplete. cbn [cp_x cp_y cp_id]. asteps. fin0. Qed.
  Lemma A_cond_endo P P' c c' : Rp0 P P' -> Rbool c c' -> alike Rp0 (cp_conditional_endo one P c) (cp_conditional_endo one P' c').
  Proof. intros HP HQ. rp0. unfold cp_conditional_endo. cbn [cp_x cp_y cp_id]. asteps. fin0. Qed.
  Lemma A_cond_neg P P' c c' : Rp0 P P' -> Rbool c c' -> alike Rp0 (cp_conditional_neg one P c) (cp_conditional_neg one P' c').
  Proof. intros HP HQ. rp0. unfold cp_conditional_neg. cbn [cp_x cp_y cp_id]. asteps. fin0. Qed.
  Lemma nth_Rbit bs bs' i d d' : Forall2 Rbit bs bs' -> Rbit d d' -> Rbit (nth i bs d) (nth i bs' d').
  Proof. intros H Hd. revert i. induction H; intros [|i]; cbn [nth]; auto. Qed.
  Lemma A_endo_step P P' bs bs' A A' i : Rp0 P P' -> Forall2 Rbit bs bs' -> Rp0 A A' -> alike Rp0 (cp_endo_step one P bs A i) (cp_endo_step one P' bs' A' i).
  Proof.
    intros HP Hb HA. unfold cp_endo_step. cbv zeta.
    assert (HN : Rbit (no_bit one) (no_bit one)) by (split; [reflexivity|exact V1]).
    eapply alike_nsb; [apply A_cond_neg; [exact HP|exact (nth_Rbit _ _ _ _ _ Hb HN)]|]. intros N N' HN'.
    eapply alike_nsb; [apply A_double_and_add; assumption|]. intros D D' HD.
    apply alike_ns. apply A_cond_endo; [exact HD|exact (nth_Rbit _ _ _ _ _ Hb HN)].
  Qed.
  Lemma Rbool_not b b' : Rbool b b' -> Rbool (bool_not b) (bool_not b').
  Proof. destruct b, b'; cbn; try tauto. congruence. Qed.
  Lemma A_mask s x x' b b' : RNum x x' -> Rbool b b' -> alike (fun n n' => Rnum n n' /\ num_value n' = None) (mask one s x b) (mask one s x' b').
  Proof.
    intros HX HB. pose proof (Rbool_not _ _ HB). unfold mask. asteps. split; [rel|reflexivity].
  Qed.
  Lemma A_multiply_endo P P' bs bs' : Rp0 P P' -> Forall2 Rbit bs bs' -> alike (fun P Q => Rpoint P Q /\ cp_id Q = cp_id P') (cp_multiply_endo one P bs) (cp_multiply_endo one P' bs').
  Proof.
    intros HP Hb. unfold cp_multiply_endo. apply alike_assertb; [|intros _]. { rewrite (UnpackP.Forall2_length _ _ _ Hb). auto. }
    eapply alike_nsb; [apply A_double0, HP|]. intros D D' HD.
    eapply alike_nsb; [apply A_add_incomplete; assumption|]. intros T T' HT.
    eapply alike_bind; [eapply alike_fold1; [|exact HT]; intros a a' i _ Ha; apply A_endo_step; assumption|]. intros A A' HA.
    eapply alike_bind; [apply A_mask; [apply HA|apply HP]|]. intros xf xf' [Hx Ex].
    eapply alike_bind; [apply A_mask; [apply HA|apply HP]|]. intros yf yf' [Hy Ey].
    astep. split; [|reflexivity]. constructor; cbn [cp_x cp_y cp_id]; [rel|rel|apply HP|].
    unfold good. cbn [cp_x cp_y n_value n_from]. rewrite Ex. apply goodv_none_x.
  Qed.
  Lemma A_multiply_inv_endo P P' bs bs' : Rp0 P P' -> bool_value (cp_id P') = None -> Forall2 Rbit bs bs' ->
    alike Rpoint (cp_multiply_inv_endo one P bs) (cp_multiply_inv_endo one P' bs').
  Proof.
    intros HP HI Hb. unfold cp_multiply_inv_endo. eapply alike_bind; [apply A_witness|].
    { intros c. unfold cp_get_point. rewrite HI. destruct (n_value (cp_x P')), (n_value (cp_y P')); discriminate. }
    intros W W' [HW _]. eapply alike_bind; [apply A_multiply_endo; [exact (Rp_0 _ _ HW)|exact Hb]|]. intros S S' [HS _].
    destruct HP as [HX HY HJ]. destruct HS as [SX SY SI SG]. asteps. exact HW.
  Qed.
  Lemma goodv_pick2 (b : option bool) (x x' y y' : option F) : goodv x y -> goodv x' y' ->
    goodv (obind b (fun b : bool => if b then x else x')) (obind b (fun b : bool => if b then y else y')).
  Proof. destruct b as [[|]|]; cbn [obind]; [auto|auto|]. intros _ _. apply goodv_none_x. Qed.
  Lemma A_multiply_step P P' A A' b b' : Rpoint P P' -> Rpoint A A' -> Rbit b b' -> alike Rpoint (cp_multiply_step one P A b) (cp_multiply_step one P' A' b').
  Proof.
    intros HP HA Hb. unfold cp_multiply_step. eapply alike_nsb; [apply A_double, HA|]. intros D D' [HD _].
    eapply alike_nsb; [apply A_add; assumption|]. intros S S' [HS _]. clear HA HP. rp. asteps.
    constructor; cbn [cp_x cp_y cp_id]; [rel|rel|rel|].
    unfold good. cbn [cp_x cp_y n_value n_from num_value coeff_mul_f coeff_value option_map].
    apply goodv_opt, goodv_ok. apply goodv_pick2; assumption.
  Qed.
  Lemma A_multiply P P' bs bs' : Rpoint P P' -> Forall2 Rbit bs bs' -> alike Rpoint (cp_multiply one P bs) (cp_multiply one P' bs').
  Proof.
    intros HP Hb. unfold cp_multiply. eapply alike_foldM; [|apply (EccMulP.Forall2_rev _ _ _ Hb)|apply R_identity].
    intros a a' x y Ha Hx. apply alike_ns. apply A_multiply_step; assumption.
  Qed.
  (** The bits of [q] have no values, at first those of the first summand are known. *)
  Lemma A_add_cond P P' Q Q' b b' : Rpoint P P' -> Rpoint Q Q' -> Rbit b b' -> bit_value b' = None \/ n_value (cp_x P') = None -> cp_id P' = Constant false -> cp_id Q' = Constant false ->
    (forall p1 p2, cp_get_point P' = Some (Some p1) -> cp_get_point Q' = Some (Some p2) -> c_get_xy (c_add p1 p2) <> None) ->
    alike (fun R R' => Rpoint R R' /\ n_value (cp_x R') = None /\ cp_id R' = Constant false) (cp_add_conditionally_incomplete one P Q (Is b)) (cp_add_conditionally_incomplete one P' Q' (Is b')).
  Proof.
    intros HP HQ Hb Hv I1 I2 HN. destruct HP as [XP YP JP GP]. destruct HQ as [XQ YQ JQ GQ]. unfold cp_add_conditionally_incomplete. cbv zeta.
    assert (HU : forall P' : CurvePoint C, good P' -> cp_id P' = Constant false -> exists o, get_point_unwrap P' = ret o /\ (forall p, o = Some p -> cp_get_point P' = Some (Some p))).
    { clear - CL. intros P' G I1. unfold get_point_unwrap, good, cp_get_point in *. rewrite I1. cbn [bool_value].
      destruct (n_value (cp_x P')) as [x|]; [|exists None; split; [reflexivity|discriminate]]. destruct (n_value (cp_y P')) as [y|]; [|exists None; split; [reflexivity|discriminate]].
      destruct (goodv_from_xy _ _ G) as (p & E & _). rewrite E. exists (Some p). split; [reflexivity|]. intros p0 E0. injection E0 as <-. reflexivity. }
    destruct (HU P' GP I1) as (o1 & E1 & K1). destruct (HU Q' GQ I2) as (o2 & E2 & K2). rewrite E1, E2.
    unfold get_point_unwrap at 1 2.
    assert (HB : forall (R : CurvePoint C -> CurvePoint C -> Prop) (P : CurvePoint C) o' (f g : option C -> CS F (CurvePoint C)),
       (forall o, alike R (f o) (g o')) -> alike R (bind match cp_get_point P with Some p => bind (unwrap p) (fun p => ret (Some p)) | None => ret None end f) (bind (ret o') g)).
    { clear. intros R P o' f g H. destruct (cp_get_point P) as [[p|]|]; [exact (H _)|apply al_panic|exact (H _)]. }
    apply HB. intro p1. apply HB. intro p2. clear HB HU.
    set (m := match o1 with Some _ => _ | None => _ end).
    assert (Hm : exists o3, m = ret o3 /\ (bit_value b' = None \/ o3 = None)). { subst m. destruct o1 as [c1|]; [|eexists; split; [reflexivity|right; reflexivity]]. destruct o2 as [c2|]; [|eexists; split; [reflexivity|right; reflexivity]].
      assert (Hv' : bit_value b' = None). { destruct Hv as [Hv|Hv]; [exact Hv|]. specialize (K1 c1 eq_refl). unfold cp_get_point in K1. rewrite I1, Hv in K1. discriminate K1. }
      specialize (HN c1 c2 (K1 c1 eq_refl) (K2 c2 eq_refl)). destruct (c_get_xy (c_add c1 c2)); [|congruence]. eexists. split; [reflexivity|left; exact Hv']. }
    destruct Hm as (o3 & Em & Hv3). rewrite Em. clear m Em.
    match goal with |- alike ?R (bind ?m ?f) ?q => assert (HC : forall o, alike R (f o) q) end.
    { intro o. change (bind (ret o3) ?g) with (g o3). cbv beta. cbn [bool_value]. asteps.
      set (v := match o3 with Some _ => _ | None => _ end). assert (Ev : v = None) by (subst v; destruct Hv3 as [E|E]; rewrite E; [destruct o3; reflexivity|reflexivity])  . rewrite Ev.
      split; [|split; reflexivity]. constructor; cbn [cp_x cp_y cp_id]; [rel|rel|reflexivity|]. apply goodv_none_x. }
    destruct p1 as [c1|]; [|apply HC]. destruct p2 as [c2|]; [|apply HC]. destruct (c_get_xy (c_add c1 c2)) as [p3|]; [|apply al_panic]. apply HC.
  Qed.
End Ecc.
