(** The group law of y^2 = x^3 + b and the projective formulas of src/curves. *)
From Coq Require Import List Bool ZArith Lia Ring Field.
From Verif Require Import Model.FieldTrait Model.Curve Spec.FieldLaws Spec.CurveSpec Proofs.FieldGen.
Import ListNotations.

Section Law.
  Context {F : Field} {p v} (FL : FieldLaws F p v).
  Let OL := fl_ops _ _ _ FL.
  Add Field Ff : (ffield OL).
  Notation finv := (@finv F p).
  Infix "+f" := fadd (at level 50, left associativity).
  Infix "-f" := fsub (at level 50, left associativity).
  Infix "*f" := fmul (at level 40, left associativity).
  Variable b : F.
  Hypothesis no_root : forall u, u *f u *f u +f b <> fzero.

  (** the addition formulas on coordinates *)
  Notation three x := (x +f x +f x).
  Definition ax (x1 y1 z1 x2 y2 z2 : F) : F :=
    (x1 *f y2 +f x2 *f y1) *f (y1 *f y2 -f three b *f (z1 *f z2))
    -f (y1 *f z2 +f y2 *f z1) *f (three b *f (x1 *f z2 +f x2 *f z1)).
  Definition ay (x1 y1 z1 x2 y2 z2 : F) : F :=
    (y1 *f y2 -f three b *f (z1 *f z2)) *f (y1 *f y2 +f three b *f (z1 *f z2))
    +f three (x1 *f x2) *f (three b *f (x1 *f z2 +f x2 *f z1)).
  Definition az (x1 y1 z1 x2 y2 z2 : F) : F :=
    (y1 *f z2 +f y2 *f z1) *f (y1 *f y2 +f three b *f (z1 *f z2))
    +f (x1 *f y2 +f x2 *f y1) *f three (x1 *f x2).

  Lemma curve_x3 x y : on_curve b (Some (x, y)) -> x *f x *f x = y *f y -f b.
  Proof. cbn [on_curve]. intros ->. ring. Qed.
  Lemma nonzero_mul (x y : F) : x <> fzero -> y <> fzero -> x *f y <> fzero.
  Proof. intros Hx Hy H. apply (fmul_zero OL) in H. tauto. Qed.
  Lemma y_nonzero x y : on_curve b (Some (x, y)) -> y <> fzero.
  Proof. cbn [on_curve]. intros H ->. apply (no_root x). rewrite <- H. ring. Qed.
  Lemma ftwo : @fone F +f fone <> fzero. Proof. apply (ftwo_neq_zero OL). Qed.

  Lemma third_on (l x1 y1 x2 : F) : on_curve b (Some (x1, y1)) ->
    x2 *f x2 = l *f (y1 +f y1 +f l *f (x2 -f x1)) -f x1 *f x1 -f x1 *f x2 ->
    on_curve b (third l x1 y1 x2).
  Proof.
    intros H1 R. pose proof (curve_x3 _ _ H1) as E1. unfold third. cbn [on_curve]. ring [E1 R].
  Qed.
  (** the chord and the tangent satisfy the condition of [third_on] *)
  Lemma chord_slope (l x1 y1 x2 y2 : F) : on_curve b (Some (x1, y1)) -> on_curve b (Some (x2, y2)) -> x1 <> x2 ->
    l *f (x2 -f x1) = y2 -f y1 ->
    x2 *f x2 = l *f (y1 +f y1 +f l *f (x2 -f x1)) -f x1 *f x1 -f x1 *f x2.
  Proof.
    intros H1 H2 Hx Hl. pose proof (curve_x3 _ _ H1) as E1. pose proof (curve_x3 _ _ H2) as E2.
    assert (D : x2 -f x1 <> fzero) by (intro E; apply Hx; symmetry; apply (proj1 (fsub_zero OL _ _) E)).
    apply (fmul_cancel_r OL _ _ (x2 -f x1)); [exact D|].
    transitivity ((l *f (x2 -f x1)) *f (y1 +f y1 +f l *f (x2 -f x1)) -f (x1 *f x1 +f x1 *f x2) *f (x2 -f x1)); [|ring].
    rewrite Hl. ring [E1 E2].
  Qed.
  Lemma tangent_slope (l x y : F) : l *f (y +f y) = three (x *f x) ->
    x *f x = l *f (y +f y +f l *f (x -f x)) -f x *f x -f x *f x.
  Proof. intro H. transitivity (l *f (y +f y) -f x *f x -f x *f x); [rewrite H; ring|ring]. Qed.

  (** the complete addition formulas in the chord case *)
  Section Chord.
    Variables x1 y1 x2 y2 : F.
    Hypothesis H1 : on_curve b (Some (x1, y1)).
    Hypothesis H2 : on_curve b (Some (x2, y2)).
    Hypothesis Hx : x1 <> x2.
    Let E1 := curve_x3 _ _ H1.
    Let E2 := curve_x3 _ _ H2.
    Let D : x2 -f x1 <> fzero.
    Proof. intro E. apply Hx. symmetry. apply (proj1 (fsub_zero OL _ _) E). Qed.

    (** the third coordinate is the ordinate of the difference of the points *)
    Lemma chord_az m : m *f (x2 -f x1) = fneg y2 -f y1 ->
      az x1 y1 fone x2 y2 fone =
      (m *f (x1 -f (m *f m -f x1 -f x2)) -f y1) *f (x2 -f x1) *f (x2 -f x1) *f (x2 -f x1).
    Proof.
      intro Hm. transitivity ((m *f (x2 -f x1)) *f ((x1 +f x1 +f x2) *f (x2 -f x1) *f (x2 -f x1) -f (m *f (x2 -f x1)) *f (m *f (x2 -f x1))) -f y1 *f (x2 -f x1) *f (x2 -f x1) *f (x2 -f x1)); [|ring].
      rewrite Hm. unfold az. ring [E1 E2].
    Qed.
    Lemma chord_az_nonzero : az x1 y1 fone x2 y2 fone <> fzero.
    Proof.
      set (m := fmul (fneg y2 -f y1) (finv (x2 -f x1))).
      assert (Hm : m *f (x2 -f x1) = fneg y2 -f y1) by (unfold m; field; exact D).
      rewrite (chord_az m Hm).
      assert (H2' : on_curve b (Some (x2, fneg y2))).
      { cbn [on_curve] in *. rewrite <- H2. ring. }
      pose proof (third_on _ _ _ _ H1 (chord_slope _ _ _ _ _ H1 H2' Hx Hm)) as H3.
      apply y_nonzero in H3. repeat apply nonzero_mul; assumption.
    Qed.
    Lemma chord_ax l : l *f (x2 -f x1) = y2 -f y1 ->
      ax x1 y1 fone x2 y2 fone = (l *f l -f x1 -f x2) *f az x1 y1 fone x2 y2 fone.
    Proof.
      intro Hl. apply (fmul_cancel_r OL _ _ ((x2 -f x1) *f (x2 -f x1))); [apply nonzero_mul; exact D|].
      transitivity (((l *f (x2 -f x1)) *f (l *f (x2 -f x1)) -f (x1 +f x2) *f ((x2 -f x1) *f (x2 -f x1))) *f az x1 y1 fone x2 y2 fone); [|ring].
      rewrite Hl. unfold ax, az. ring [E1 E2].
    Qed.
    Lemma chord_ay l : l *f (x2 -f x1) = y2 -f y1 ->
      ay x1 y1 fone x2 y2 fone = (l *f (x1 -f (l *f l -f x1 -f x2)) -f y1) *f az x1 y1 fone x2 y2 fone.
    Proof.
      intro Hl. apply (fmul_cancel_r OL _ _ ((x2 -f x1) *f (x2 -f x1) *f (x2 -f x1))); [repeat apply nonzero_mul; exact D|].
      transitivity (((l *f (x2 -f x1)) *f ((x1 +f x1 +f x2) *f (x2 -f x1) *f (x2 -f x1) -f (l *f (x2 -f x1)) *f (l *f (x2 -f x1))) -f y1 *f (x2 -f x1) *f (x2 -f x1) *f (x2 -f x1)) *f az x1 y1 fone x2 y2 fone); [|ring].
      rewrite Hl. unfold ay, az. ring [E1 E2].
    Qed.
  End Chord.
  (** the same for equal and opposite points *)
  Section Tangent.
    Variables x y : F.
    Hypothesis H : on_curve b (Some (x, y)).
    Let E := curve_x3 _ _ H.
    Let Hy : y <> fzero := y_nonzero _ _ H.
    Let Hyy : y +f y <> fzero.
    Proof. replace (y +f y) with ((fone +f fone) *f y) by ring. apply nonzero_mul; [apply ftwo|exact Hy]. Qed.
    Lemma tangent_az : az x y fone x y fone = (y +f y) *f (y +f y) *f (y +f y).
    Proof. unfold az. ring [E]. Qed.
    Lemma tangent_ax l : l *f (y +f y) = three (x *f x) ->
      ax x y fone x y fone = (l *f l -f x -f x) *f az x y fone x y fone.
    Proof.
      intro Hl. rewrite tangent_az.
      transitivity (((l *f (y +f y)) *f (l *f (y +f y)) -f (x +f x) *f ((y +f y) *f (y +f y))) *f (y +f y)); [|ring].
      rewrite Hl. unfold ax. ring [E].
    Qed.
    Lemma tangent_ay l : l *f (y +f y) = three (x *f x) ->
      ay x y fone x y fone = (l *f (x -f (l *f l -f x -f x)) -f y) *f az x y fone x y fone.
    Proof.
      intro Hl. rewrite tangent_az.
      transitivity ((l *f (y +f y)) *f (three x *f ((y +f y) *f (y +f y)) -f (l *f (y +f y)) *f (l *f (y +f y))) -f y *f ((y +f y) *f (y +f y) *f (y +f y))); [|ring].
      rewrite Hl. unfold ay. ring [E].
    Qed.
    (** opposite points: the second coordinate is that of the doubled point *)
    Lemma opposite_ay l : l *f (y +f y) = three (x *f x) ->
      ay x y fone x (fneg y) fone = (l *f (x -f (l *f l -f x -f x)) -f y) *f ((y +f y) *f (y +f y) *f (y +f y)).
    Proof.
      intro Hl.
      transitivity ((l *f (y +f y)) *f (three x *f ((y +f y) *f (y +f y)) -f (l *f (y +f y)) *f (l *f (y +f y))) -f y *f ((y +f y) *f (y +f y) *f (y +f y))); [|ring].
      rewrite Hl. unfold ay. ring [E].
    Qed.
    Lemma opposite_ay_nonzero : ay x y fone x (fneg y) fone <> fzero.
    Proof.
      set (l := three (x *f x) *f finv (y +f y)).
      assert (Hl : l *f (y +f y) = three (x *f x)) by (unfold l; field; exact Hyy).
      rewrite (opposite_ay l Hl). pose proof (third_on _ _ _ _ H (tangent_slope _ _ _ Hl)) as H3.
      apply y_nonzero in H3. repeat apply nonzero_mul; assumption.
    Qed.
  End Tangent.

  (** the sum as a function *)
  Definition gadd (A B : point F) : point F :=
    match A, B with
    | None, _ => B
    | _, None => A
    | Some (x1, y1), Some (x2, y2) =>
        if feqb x1 x2 then
          if feqb y2 (fneg y1) then None
          else third (three (x1 *f x1) *f finv (y1 +f y1)) x1 y1 x1
        else third ((y2 -f y1) *f finv (x2 -f x1)) x1 y1 x2
    end.
  Notation on := (on_curve b).
  Lemma double_y_nonzero x y : on (Some (x, y)) -> y +f y <> fzero.
  Proof.
    intro H. replace (y +f y) with ((fone +f fone) *f y) by ring. apply nonzero_mul; [apply ftwo|apply (y_nonzero _ _ H)].
  Qed.
  Lemma sub_nonzero (x1 x2 : F) : x1 <> x2 -> x2 -f x1 <> fzero.
  Proof. intros Hx E. apply Hx. symmetry. apply (proj1 (fsub_zero OL _ _) E). Qed.
  Lemma same_x x y1 y2 : on (Some (x, y1)) -> on (Some (x, y2)) -> y2 <> fneg y1 -> y2 = y1.
  Proof.
    cbn [on_curve]. intros H1 H2 Hn. assert (E : y2 *f y2 = y1 *f y1) by congruence.
    apply (square_eq OL) in E. tauto.
  Qed.
  Lemma slope_tangent x y : on (Some (x, y)) -> three (x *f x) *f finv (y +f y) *f (y +f y) = three (x *f x).
  Proof. intro H. field. apply (double_y_nonzero _ _ H). Qed.
  Lemma slope_chord (x1 y1 x2 y2 : F) : x1 <> x2 -> (y2 -f y1) *f finv (x2 -f x1) *f (x2 -f x1) = y2 -f y1.
  Proof. intro H. field. apply sub_nonzero, H. Qed.
  Ltac eqcase x y := let E := fresh "E" in destruct (feqb x y) eqn:E;
    [apply (feqb_eq OL) in E|assert (x <> y) by (let HH := fresh in intro HH; rewrite (proj2 (feqb_eq OL _ _) HH) in E; discriminate E); clear E].

  Lemma gadd_sum A B : on A -> on B -> sum_of A B (gadd A B).
  Proof.
    intros HA HB. destruct A as [[x1 y1]|], B as [[x2 y2]|]; cbn [gadd]; try constructor.
    eqcase x1 x2.
    - subst x2. eqcase y2 (fneg y1).
      + subst y2. constructor.
      + rewrite (same_x _ _ _ HA HB H). apply sum_tangent; [apply (y_nonzero _ _ HA)|apply slope_tangent, HA].
    - apply sum_chord; [assumption|apply slope_chord; assumption].
  Qed.
  Lemma gadd_on A B : on A -> on B -> on (gadd A B).
  Proof.
    intros HA HB. destruct A as [[x1 y1]|], B as [[x2 y2]|]; cbn [gadd]; try assumption.
    eqcase x1 x2.
    - subst x2. eqcase y2 (fneg y1); [exact I|]. apply third_on; [exact HA|]. apply tangent_slope, slope_tangent, HA.
    - apply third_on; [exact HA|]. apply (chord_slope _ _ _ _ y2 HA HB); [assumption|]. apply slope_chord; assumption.
  Qed.
  Lemma sum_fun A B C : on A -> on B -> sum_of A B C -> C = gadd A B.
  Proof.
    intros HA HB H. destruct H as [B|A|x y|x1 y1 x2 y2 l Hx Hl|x y l Hy Hl]; cbn [gadd].
    - reflexivity.
    - destruct A as [[? ?]|]; reflexivity.
    - rewrite !(feqb_refl OL). reflexivity.
    - eqcase x1 x2; [contradiction|]. f_equal. rewrite <- Hl. field. apply sub_nonzero, Hx.
    - rewrite (feqb_refl OL). eqcase y (fneg y).
      + exfalso. apply (double_y_nonzero _ _ HA). rewrite E at 1. ring.
      + f_equal. rewrite <- Hl. field. apply (double_y_nonzero _ _ HA).
  Qed.

  (** projective triples *)
  Definition rep3 (X Y Z : F) (A : point F) : Prop :=
    match A with
    | None => X = fzero /\ Y <> fzero /\ Z = fzero
    | Some (x, y) => Z <> fzero /\ X = x *f Z /\ Y = y *f Z /\ on A
    end.
  Lemma rep3_on X Y Z A : rep3 X Y Z A -> on A.
  Proof. destruct A as [[x y]|]; cbn [rep3]; [tauto|intros; exact I]. Qed.
  Lemma rep3_scale X Y Z A k : rep3 X Y Z A -> k <> fzero -> rep3 (X *f k) (Y *f k) (Z *f k) A.
  Proof.
    destruct A as [[x y]|]; cbn [rep3].
    - intros (H1 & -> & -> & H2) Hk. split; [apply nonzero_mul; assumption|]. split; [ring|]. split; [ring|exact H2].
    - intros (-> & H1 & ->) Hk. split; [ring|]. split; [apply nonzero_mul; assumption|ring].
  Qed.
  Lemma rep3_one x y : on (Some (x, y)) -> rep3 x y fone (Some (x, y)).
  Proof.
    intro H. cbn [rep3]. split; [apply (fone_neq_zero OL)|]. split; [ring|]. split; [ring|exact H].
  Qed.
  Lemma rep3_cross X Y Z X' Y' Z' A B : rep3 X Y Z A -> rep3 X' Y' Z' B ->
    X *f Z' = X' *f Z -> Y *f Z' = Y' *f Z -> A = B.
  Proof.
    destruct A as [[x y]|], B as [[x' y']|]; cbn [rep3].
    - intros (H1 & -> & -> & _) (H2 & -> & -> & _) EX EY.
      assert (HZ : Z *f Z' <> fzero) by (apply nonzero_mul; assumption).
      assert (x = x') as -> by (apply (fmul_cancel_r OL _ _ _ HZ); transitivity (x *f Z *f Z'); [ring|rewrite EX; ring]).
      assert (y = y') as -> by (apply (fmul_cancel_r OL _ _ _ HZ); transitivity (y *f Z *f Z'); [ring|rewrite EY; ring]).
      reflexivity.
    - intros (H1 & _) (_ & H2 & ->) _ EY. exfalso. apply (nonzero_mul _ _ H2 H1). rewrite <- EY. ring.
    - intros (_ & H2 & ->) (H1 & _) _ EY. exfalso. apply (nonzero_mul _ _ H2 H1). rewrite EY. ring.
    - reflexivity.
  Qed.

  Lemma add_affine x1 y1 x2 y2 : on (Some (x1, y1)) -> on (Some (x2, y2)) ->
    rep3 (ax x1 y1 fone x2 y2 fone) (ay x1 y1 fone x2 y2 fone) (az x1 y1 fone x2 y2 fone)
      (gadd (Some (x1, y1)) (Some (x2, y2))).
  Proof.
    intros H1 H2. pose proof (gadd_on _ _ H1 H2) as HO. cbn [gadd] in *. eqcase x1 x2.
    - subst x2. eqcase y2 (fneg y1).
      + subst y2. cbn [rep3]. split; [unfold ax; ring|]. split; [apply opposite_ay_nonzero, H1|unfold az; ring].
      + rewrite (same_x _ _ _ H1 H2 H). unfold third. cbn [rep3].
        split; [|split; [|split; [|exact HO]]].
        * rewrite (tangent_az _ _ H1). pose proof (double_y_nonzero _ _ H1). repeat apply nonzero_mul; assumption.
        * apply (tangent_ax _ _ H1), slope_tangent, H1.
        * apply (tangent_ay _ _ H1), slope_tangent, H1.
    - unfold third. cbn [rep3]. split; [|split; [|split; [|exact HO]]].
      + apply chord_az_nonzero; assumption.
      + apply chord_ax; try assumption. apply slope_chord; assumption.
      + apply chord_ay; try assumption. apply slope_chord; assumption.
  Qed.
  Lemma add_rep3 X Y Z A X' Y' Z' B : rep3 X Y Z A -> rep3 X' Y' Z' B ->
    rep3 (ax X Y Z X' Y' Z') (ay X Y Z X' Y' Z') (az X Y Z X' Y' Z') (gadd A B).
  Proof.
    intros HA HB. destruct A as [[x1 y1]|], B as [[x2 y2]|].
    - destruct HA as (Hz & -> & -> & H1), HB as (Hz' & -> & -> & H2).
      replace (ax (x1 *f Z) (y1 *f Z) Z (x2 *f Z') (y2 *f Z') Z') with (ax x1 y1 fone x2 y2 fone *f (Z *f Z *f (Z' *f Z'))) by (unfold ax; ring).
      replace (ay (x1 *f Z) (y1 *f Z) Z (x2 *f Z') (y2 *f Z') Z') with (ay x1 y1 fone x2 y2 fone *f (Z *f Z *f (Z' *f Z'))) by (unfold ay; ring).
      replace (az (x1 *f Z) (y1 *f Z) Z (x2 *f Z') (y2 *f Z') Z') with (az x1 y1 fone x2 y2 fone *f (Z *f Z *f (Z' *f Z'))) by (unfold az; ring).
      apply rep3_scale; [apply add_affine; assumption|]. repeat apply nonzero_mul; assumption.
    - destruct HB as (-> & Hy & ->). pose proof HA as (Hz & EX & EY & H1). cbn [gadd].
      replace (ax X Y Z fzero Y' fzero) with (X *f (Y *f Y' *f Y')) by (unfold ax; ring).
      replace (ay X Y Z fzero Y' fzero) with (Y *f (Y *f Y' *f Y')) by (unfold ay; ring).
      replace (az X Y Z fzero Y' fzero) with (Z *f (Y *f Y' *f Y')) by (unfold az; ring).
      apply rep3_scale; [exact HA|]. rewrite EY. pose proof (y_nonzero _ _ H1). repeat apply nonzero_mul; assumption.
    - destruct HA as (-> & Hy & ->). pose proof HB as (Hz & EX & EY & H1). cbn [gadd].
      replace (ax fzero Y fzero X' Y' Z') with (X' *f (Y' *f Y *f Y)) by (unfold ax; ring).
      replace (ay fzero Y fzero X' Y' Z') with (Y' *f (Y' *f Y *f Y)) by (unfold ay; ring).
      replace (az fzero Y fzero X' Y' Z') with (Z' *f (Y' *f Y *f Y)) by (unfold az; ring).
      apply rep3_scale; [exact HB|]. rewrite EY. pose proof (y_nonzero _ _ H1). repeat apply nonzero_mul; assumption.
    - destruct HA as (-> & Hy & ->), HB as (-> & Hy' & ->). cbn [gadd rep3].
      split; [unfold ax; ring|]. split; [|unfold az; ring].
      replace (ay fzero Y fzero fzero Y' fzero) with (Y *f Y' *f (Y *f Y')) by (unfold ay; ring).
      repeat apply nonzero_mul; assumption.
  Qed.

  (** associativity *)
  Section Assoc.
    Variables x1 y1 x2 y2 x3 y3 : F.
    Hypothesis H1 : on (Some (x1, y1)).
    Hypothesis H2 : on (Some (x2, y2)).
    Hypothesis H3 : on (Some (x3, y3)).
    Let E1 := curve_x3 _ _ H1.
    Let E2 := curve_x3 _ _ H2.
    Let E3 := curve_x3 _ _ H3.
    Notation X := (ax x1 y1 fone x2 y2 fone).
    Notation Y := (ay x1 y1 fone x2 y2 fone).
    Notation Z := (az x1 y1 fone x2 y2 fone).
    Notation X' := (ax x2 y2 fone x3 y3 fone).
    Notation Y' := (ay x2 y2 fone x3 y3 fone).
    Notation Z' := (az x2 y2 fone x3 y3 fone).
    Lemma assoc_x : ax X Y Z x3 y3 fone *f az x1 y1 fone X' Y' Z' = ax x1 y1 fone X' Y' Z' *f az X Y Z x3 y3 fone.
    Proof. unfold ax, ay, az. ring [E1 E2 E3]. Qed.
    Lemma assoc_y : ay X Y Z x3 y3 fone *f az x1 y1 fone X' Y' Z' = ay x1 y1 fone X' Y' Z' *f az X Y Z x3 y3 fone.
    Proof. unfold ax, ay, az. ring [E1 E2 E3]. Qed.
    Lemma assoc_affine : gadd (gadd (Some (x1, y1)) (Some (x2, y2))) (Some (x3, y3))
      = gadd (Some (x1, y1)) (gadd (Some (x2, y2)) (Some (x3, y3))).
    Proof.
      eapply rep3_cross; [| |exact assoc_x|exact assoc_y].
      - apply add_rep3; [apply add_affine; assumption|apply rep3_one, H3].
      - apply add_rep3; [apply rep3_one, H1|apply add_affine; assumption].
    Qed.
  End Assoc.
  Lemma gadd_none_r A : gadd A None = A. Proof. destruct A as [[? ?]|]; reflexivity. Qed.
  Lemma gadd_assoc A B C : on A -> on B -> on C -> gadd (gadd A B) C = gadd A (gadd B C).
  Proof.
    intros HA HB HC. destruct A as [[x1 y1]|]; [|reflexivity]. destruct B as [[x2 y2]|]; [|reflexivity].
    destruct C as [[x3 y3]|]; [apply assoc_affine; assumption|]. rewrite !gadd_none_r. reflexivity.
  Qed.
  Lemma gadd_comm A B : on A -> on B -> gadd A B = gadd B A.
  Proof.
    intros HA HB. destruct A as [[x1 y1]|], B as [[x2 y2]|]; try reflexivity.
    eapply rep3_cross; [apply add_affine; assumption|apply add_affine; assumption| |]; unfold ax, ay, az; ring.
  Qed.
  Lemma opposite_on A : on A -> on (opposite A).
  Proof. destruct A as [[x y]|]; cbn [opposite on_curve]; [|auto]. intros <-. ring. Qed.
  Lemma gadd_opposite A : gadd A (opposite A) = None.
  Proof. destruct A as [[x y]|]; cbn [opposite gadd]; [|reflexivity]. rewrite !(feqb_refl OL). reflexivity. Qed.
End Law.
