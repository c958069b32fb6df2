(** The functions of src/curves on representatives of points. *)
From Coq Require Import List Bool ZArith Lia Ring Field Eqdep_dec.
From Verif Require Import Lib.AbGroup Model.FieldTrait Model.Curve Spec.FieldLaws Spec.CurveSpec Proofs.FieldGen
  Proofs.CurveP.
Import ListNotations.

(** bits of a byte string *)
Definition msb_val (acc : Z) (bs : list bool) : Z := fold_left (fun n (b : bool) => 2 * n + Z.b2z b)%Z bs acc.
Lemma msb_app acc l l' : msb_val acc (l ++ l') = msb_val (msb_val acc l) l'.
Proof. apply fold_left_app. Qed.
Lemma land1 x : (0 <= x)%Z -> Z.b2z (Z.land x 1 =? 1)%Z = (x mod 2)%Z.
Proof.
  intro H. change 1%Z with (Z.ones 1) at 1. rewrite Z.land_ones by lia. change (2 ^ 1)%Z with 2%Z.
  pose proof (Z.mod_pos_bound x 2 ltac:(lia)). destruct (Z.eqb_spec (x mod 2) 1); cbn [Z.b2z]; lia.
Qed.
Lemma byte_bits x acc : byte x ->
  msb_val acc (map (fun i => Z.land (Z.shiftr x (Z.of_nat i)) 1 =? 1)%Z (rev (seq 0 8))) = (256 * acc + x)%Z.
Proof.
  intros [H1 H2]. cbn [seq rev app map]. unfold msb_val. cbn [fold_left].
  repeat rewrite land1 by (apply Z.shiftr_nonneg; exact H1).
  rewrite !Z.shiftr_div_pow2 by lia. 
  change (2 ^ Z.of_nat 0)%Z with 1%Z. change (2 ^ Z.of_nat 1)%Z with 2%Z. change (2 ^ Z.of_nat 2)%Z with 4%Z.
  change (2 ^ Z.of_nat 3)%Z with 8%Z. change (2 ^ Z.of_nat 4)%Z with 16%Z. change (2 ^ Z.of_nat 5)%Z with 32%Z.
  change (2 ^ Z.of_nat 6)%Z with 64%Z. change (2 ^ Z.of_nat 7)%Z with 128%Z.
  Z.div_mod_to_equations. lia.
Qed.
Lemma bytes_bits_rev_val bs acc : Forall byte bs ->
  msb_val acc (bytes_bits_rev bs) = (256 ^ Z.of_nat (length bs) * acc + le_val bs)%Z.
Proof.
  unfold bytes_bits_rev. revert acc. induction bs as [|x bs IH]; intros acc Hb.
  - cbn [rev flat_map le_val length]. change (256 ^ Z.of_nat 0)%Z with 1%Z. unfold msb_val. cbn [fold_left]. lia.
  - inversion_clear Hb as [|? ? Hx Hbs]. cbn [rev le_val length]. rewrite flat_map_app, msb_app, IH by exact Hbs.
    cbn [flat_map]. rewrite app_nil_r, byte_bits by exact Hx.
    rewrite Nat2Z.inj_succ, Z.pow_succ_r by lia. ring.
Qed.
Lemma bytes_bits_rev_length bs : length (bytes_bits_rev bs) = (8 * length bs)%nat.
Proof.
  unfold bytes_bits_rev. rewrite <- (rev_length bs). induction (rev bs) as [|x l IH]; [reflexivity|].
  cbn [flat_map]. rewrite app_length, IH, map_length, rev_length, seq_length. cbn [length]. lia.
Qed.
Lemma msb_lower l : forall acc, (0 <= acc)%Z -> (acc * 2 ^ Z.of_nat (length l) <= msb_val acc l)%Z.
Proof.
  induction l as [|x l IH]; intros acc H; unfold msb_val; cbn [fold_left length].
  - change (2 ^ Z.of_nat 0)%Z with 1%Z. lia.
  - specialize (IH (2 * acc + Z.b2z x)%Z). unfold msb_val in IH. rewrite Nat2Z.inj_succ, Z.pow_succ_r by lia.
    pose proof (Z.pow_pos_nonneg 2 (Z.of_nat (length l)) ltac:(lia) ltac:(lia)).
    destruct x; cbn [Z.b2z] in *; nia.
Qed.
(** the first bit is the one the code skips *)
Lemma skip_top bs : length bs = 32%nat -> Forall byte bs -> (le_val bs < 2 ^ 255)%Z ->
  msb_val 0 (skipn 1 (bytes_bits_rev bs)) = le_val bs.
Proof.
  intros HL Hb Hlt. pose proof (bytes_bits_rev_val bs 0 Hb) as E. pose proof (bytes_bits_rev_length bs) as L.
  rewrite HL in L. destruct (bytes_bits_rev bs) as [|x l]; [discriminate L|].
  cbn [skipn]. rewrite Z.mul_0_r, Z.add_0_l in E. unfold msb_val in E. cbn [fold_left] in E.
  fold (msb_val (2 * 0 + Z.b2z x) l) in E. destruct x; cbn [Z.b2z] in E; [|exact E].
  pose proof (msb_lower l 1 ltac:(lia)) as M. change (2 * 0 + 1)%Z with 1%Z in E. rewrite E in M.
  cbn [length] in L. replace (length l) with 255%nat in M by lia. change (Z.of_nat 255) with 255%Z in M. lia.
Qed.

(** the parity of an element *)
Section Sgn.
  Context {F : Field} {p v} (FL : FieldLaws F p v).
  Let OL := fl_ops _ _ _ FL.
  Add Ring Fr0 : (fring OL).
  Lemma v_zero (a : F) : v a = 0%Z <-> a = fzero.
  Proof. apply (v_eq_zero OL). Qed.
  Definition sgn (y : F) : Z := (v y mod 2)%Z.
  Lemma sgn_code y : Z.land (nth 0 (f_to_bytes y) 0%Z) 1 = sgn y.
  Proof.
    destruct (fl_to_bytes _ _ _ FL y) as (HL & HB & HV). unfold sgn. rewrite <- HV.
    destruct (f_to_bytes y) as [|x l]; [discriminate HL|]. cbn [nth le_val].
    change 1%Z with (Z.ones 1). rewrite Z.land_ones by lia. change (2 ^ 1)%Z with 2%Z.
    replace (x + 256 * le_val l)%Z with (x + (128 * le_val l) * 2)%Z by ring. rewrite Z_mod_plus_full. reflexivity.
  Qed.
  Lemma sgn_01 y : sgn y = 0%Z \/ sgn y = 1%Z.
  Proof. unfold sgn. pose proof (Z.mod_pos_bound (v y) 2 ltac:(lia)). lia. Qed.
  Lemma p_odd : (p mod 2 = 1)%Z.
  Proof.
    pose proof (fl_two_adic _ _ _ FL) as E. pose proof (fl_size _ _ _ FL). pose proof (Z.div_mod (p - 1) (2 ^ 32) ltac:(lia)) as D.
    rewrite E in D. change (2 ^ 32)%Z with (2 * 2147483648)%Z in D.
    replace p with (1 + (2147483648 * ((p - 1) / (2 * 2147483648))) * 2)%Z by lia. rewrite Z_mod_plus_full. reflexivity.
  Qed.
  Lemma sgn_neg y : y <> fzero -> sgn (fneg y) = (1 - sgn y)%Z.
  Proof.
    intro H. unfold sgn. rewrite (ol_neg _ _ _ OL). pose proof (ol_range _ _ _ OL y) as R.
    assert (v y <> 0)%Z by (rewrite v_zero; exact H). pose proof p_odd as PO.
    assert (E : ((- v y) mod p = p - v y)%Z).
    { symmetry. apply Z.mod_unique with (q := (-1)%Z); [left; lia|ring]. }
    rewrite E. clear E. Z.div_mod_to_equations. lia.
  Qed.
  Lemma sgn_inj y y' : y <> fzero -> fmul y y = fmul y' y' -> sgn y = sgn y' -> y = y'.
  Proof.
    intros H0 E HS. apply (square_eq OL) in E. destruct E as [E|E]; [exact E|].
    assert (y' <> fzero) by (intros ->; apply H0; rewrite E; ring).
    subst y. rewrite sgn_neg in HS by assumption. pose proof (sgn_01 y'). lia.
  Qed.
End Sgn.

Section Code.
  Context {F S : Field} {p v} (FL : FieldLaws F p v) {r vs} (SL : FieldLaws S r vs).
  Let OL := fl_ops _ _ _ FL.
  Let SO := fl_ops _ _ _ SL.
  Add Field Ff : (ffield OL).
  Variables b b3 gy : F.
  Hypothesis Hb3 : b3 = fadd (fadd b b) b.
  Hypothesis no_root : forall u : F, fadd (fmul (fmul u u) u) b <> fzero.
  Notation on := (on_curve b).
  Notation C := (curve_of F S b b3 gy).
  Notation gadd := (@gadd F p).

  Lemma rep_rep3 (P : C) (A : point F) : represents P A <-> @rep3 F b (px P) (py P) (pz P) A.
  Proof. reflexivity. Qed.
  Ltac r3 H := match type of H with represents ?P ?A => change (@rep3 F b (px P) (py P) (pz P) A) in H end.
  Lemma rep_on (P : C) (A : point F) : represents P A -> on A.
  Proof. apply rep3_on. Qed.

  Lemma add_coords (P Q : Pt F) : pt_add F b3 P Q =
    mkPt (ax b (px P) (py P) (pz P) (px Q) (py Q) (pz Q)) (ay b (px P) (py P) (pz P) (px Q) (py Q) (pz Q))
         (az b (px P) (py P) (pz P) (px Q) (py Q) (pz Q)).
  Proof.
    unfold pt_add, mul_by_3b, ax, ay, az. rewrite Hb3. cbv zeta. f_equal; ring.
  Qed.
  Lemma rep_add (P Q : C) (A B : point F) : represents P A -> represents Q B -> represents (c_add P Q) (gadd A B).
  Proof.
    intros HA HB. change (represents (C := C) (pt_add F b3 P Q) (gadd A B)). rewrite add_coords.
    apply (proj2 (rep_rep3 _ _)). cbn [px py pz]. apply (add_rep3 FL b no_root); assumption.
  Qed.
  Lemma rep_eqn (P : C) (A : point F) : represents P A ->
    fmul (fmul (px P) (px P)) (px P) =
    fsub (fmul (fmul (py P) (py P)) (pz P)) (fmul b (fmul (fmul (pz P) (pz P)) (pz P))).
  Proof.
    intro H. r3 H. destruct A as [[x y]|]; cbn [rep3] in H.
    - destruct H as (_ & -> & -> & H). pose proof (curve_x3 FL b _ _ H) as E. ring [E].
    - destruct H as (-> & _ & ->). ring.
  Qed.
  Lemma double_coords (P : C) (A : point F) : represents P A -> pt_double F b3 P = pt_add F b3 P P.
  Proof.
    intro H. pose proof (rep_eqn P A H) as E. rewrite add_coords.
    unfold pt_double, mul_by_3b, ax, ay, az. rewrite Hb3. cbv zeta. rewrite !(fsquare_mul OL). f_equal; ring [E].
  Qed.
  Lemma rep_double (P : C) (A : point F) : represents P A -> represents (c_double P) (gadd A A).
  Proof.
    intro HA. change (represents (C := C) (pt_double F b3 P) (gadd A A)). rewrite (double_coords P A HA).
    apply (rep_add P P); exact HA.
  Qed.
  Lemma rep_zero : represents (c_zero : C) None.
  Proof. cbn. split; [reflexivity|]. split; [apply (fone_neq_zero OL)|reflexivity]. Qed.
  Lemma is_zero_spec (P : C) (A : point F) : represents P A -> (c_is_zero P = true <-> A = None).
  Proof.
    intro H. r3 H. change (c_is_zero P) with (feqb (pz P) fzero). rewrite (feqb_eq OL).
    destruct A as [[x y]|]; cbn [rep3] in H; intuition congruence.
  Qed.
  Lemma rep_neg (P : C) (A : point F) : represents P A -> represents (c_neg P) (opposite A).
  Proof.
    intro H. change (represents (C := C) (pt_neg F P) (opposite A)). unfold pt_neg.
    destruct (pt_is_zero F P) eqn:E.
    - pose proof (proj1 (is_zero_spec P A H) E) as EA. subst A. exact H.
    - destruct A as [[x y]|].
      + r3 H. apply (proj2 (rep_rep3 _ _)). cbn [px py pz rep3 opposite] in *. destruct H as (H1 & H2 & H3 & H4).
        split; [exact H1|]. split; [exact H2|]. split; [rewrite H3; ring|]. apply (opposite_on FL b _ H4).
      + exfalso. pose proof (proj2 (is_zero_spec P _ H) eq_refl). cbn [c_is_zero curve_of] in *. congruence.
  Qed.
  Lemma rep_sub (P Q : C) (A B : point F) : represents P A -> represents Q B -> represents (c_sub P Q) (gadd A (opposite B)).
  Proof. intros HA HB. apply (rep_add P (c_neg Q)); [exact HA|apply rep_neg, HB]. Qed.
  Lemma select_spec (P Q : C) c : c_select P Q c = if c then Q else P.
  Proof. destruct P, Q, c; reflexivity. Qed.

  Lemma rep_inj (P : C) (A B : point F) : represents P A -> represents P B -> A = B.
  Proof. intros HA HB. r3 HA. r3 HB. eapply (rep3_cross FL b); [exact HA|exact HB|reflexivity|reflexivity]. Qed.

  (** coordinates *)
  Lemma invert_some (a : F) : a <> fzero -> exists i, f_invert a = Some i /\ fmul a i = fone.
  Proof.
    intro H. destruct (fl_invert _ _ _ FL a) as (i & E1 & E2); [rewrite (v_zero FL); exact H|].
    exists i. split; [exact E1|]. apply (ol_inj _ _ _ OL). rewrite (ol_mul _ _ _ OL), E2, (ol_one _ _ _ OL). reflexivity.
  Qed.
  Lemma invert_none : f_invert (@fzero F) = None.
  Proof. apply (fl_invert_zero _ _ _ FL). apply (ol_zero _ _ _ OL). Qed.
  Lemma get_xy_rep (P : C) (A : point F) : represents P A -> c_get_xy P = A.
  Proof.
    intro H. r3 H. change (c_get_xy P) with (pt_get_xy F P). unfold pt_get_xy.
    destruct A as [[x y]|]; cbn [rep3] in H.
    - destruct H as (H1 & H2 & H3 & _). destruct (invert_some _ H1) as (i & -> & Hi). rewrite H2, H3.
      f_equal. f_equal; [transitivity (fmul x (fmul (pz P) i))|transitivity (fmul y (fmul (pz P) i))]; try ring; rewrite Hi; ring.
    - destruct H as (_ & _ & ->). rewrite invert_none. reflexivity.
  Qed.
  Lemma on_curve_code (x y : F) : pt_is_on_curve F b (mkPt x y fone) = true <-> on (Some (x, y)).
  Proof.
    unfold pt_is_on_curve, pt_is_zero. cbn [pz].
    assert (E : feqb (@fone F) fzero = false).
    { destruct (feqb (@fone F) fzero) eqn:E; [|reflexivity]. exfalso. apply (feqb_eq OL) in E. apply (fone_neq_zero OL), E. }
    rewrite E. unfold pt_get_xy. cbn [px py pz].
    destruct (invert_some fone (fone_neq_zero OL)) as (i & -> & Hi).
    assert (i = fone) as -> by (rewrite <- Hi; ring).
    rewrite (feqb_eq OL), !(fsquare_mul OL). cbn [on_curve].
    replace (fmul x fone) with x by ring. replace (fmul y fone) with y by ring. split; congruence.
  Qed.
  Lemma is_on_curve_rep (P : C) (A : point F) : represents P A -> c_is_on_curve P = true.
  Proof.
    intro H. change (c_is_on_curve P) with (pt_is_on_curve F b P). unfold pt_is_on_curve.
    destruct (pt_is_zero F P) eqn:E; [reflexivity|]. change (pt_get_xy F P) with (c_get_xy P). rewrite (get_xy_rep P A H).
    destruct A as [[x y]|].
    - apply (feqb_eq OL). rewrite !(fsquare_mul OL). pose proof (rep_on P _ H) as HO. cbn [on_curve] in HO. congruence.
    - pose proof (proj2 (is_zero_spec P _ H) eq_refl). cbn [c_is_zero curve_of] in *. congruence.
  Qed.
  (** [is_on_curve] is exact away from z = 0 *)
  Lemma is_on_curve_valid (P : C) : pz P <> fzero -> c_is_on_curve P = true -> exists A : point F, represents P A.
  Proof.
    intros Hz H. change (c_is_on_curve P) with (pt_is_on_curve F b P) in H. unfold pt_is_on_curve, pt_is_zero in H.
    destruct (feqb (pz P) fzero) eqn:E; [apply (feqb_eq OL) in E; contradiction|].
    unfold pt_get_xy in H. destruct (invert_some _ Hz) as (i & Ei & Hi). rewrite Ei in H.
    apply (feqb_eq OL) in H. rewrite !(fsquare_mul OL) in H.
    exists (Some (fmul (px P) i, fmul (py P) i)). apply (proj2 (rep_rep3 _ _)). cbn [rep3 on_curve].
    split; [exact Hz|]. split; [ring [Hi]|]. split; [ring [Hi]|]. symmetry. exact H.
  Qed.
  Lemma from_xy_unchecked_rep x y : on (Some (x, y)) -> represents (@c_from_xy_unchecked C x y) (Some (x, y)).
  Proof. apply (rep3_one FL). Qed.
  Hypothesis b_nonsquare : forall y : F, fmul y y <> b.
  Lemma x_nonzero x y : on (Some (x, y)) -> x <> fzero.
  Proof. intros H ->. apply (b_nonsquare y). cbn [on_curve] in H. rewrite H. ring. Qed.
  Lemma is_zero_F (x : F) : is_zero F x = true <-> x = fzero.
  Proof. unfold is_zero. apply (feqb_eq OL). Qed.
  Lemma from_xy_pt (x y : F) (P : Pt F) : pt_from_xy F b x y = Some P <->
    (on (Some (x, y)) /\ P = mkPt x y fone) \/ (x = fzero /\ y = fzero /\ P = pt_zero F).
  Proof.
    unfold pt_from_xy.
    destruct (pt_is_on_curve F b (mkPt x y fone)) eqn:E.
    - apply on_curve_code in E. pose proof (x_nonzero _ _ E). intuition congruence.
    - assert (~ on (Some (x, y))) by (intro H; apply on_curve_code in H; congruence).
      destruct (is_zero F x) eqn:Ex, (is_zero F y) eqn:Ey; cbn [andb].
      + apply is_zero_F in Ex, Ey. intuition congruence.
      + assert (y <> fzero) by (intro HH; apply is_zero_F in HH; congruence). intuition congruence.
      + assert (x <> fzero) by (intro HH; apply is_zero_F in HH; congruence). intuition congruence.
      + assert (x <> fzero) by (intro HH; apply is_zero_F in HH; congruence). intuition congruence.
  Qed.
  Lemma from_xy_spec (x y : F) (P : C) : @c_from_xy C x y = Some P <->
    (on (Some (x, y)) /\ P = @c_from_xy_unchecked C x y) \/ (x = fzero /\ y = fzero /\ P = c_zero).
  Proof. exact (from_xy_pt x y P). Qed.

  (** equality *)
  Lemma eqb_spec (P Q : C) (A B : point F) : represents P A -> represents Q B ->
    (c_eqb P Q = true <-> A = None \/ A = B).
  Proof.
    intros HA HB. change (c_eqb P Q) with (pt_eqb F P Q). unfold pt_eqb, pt_is_zero.
    r3 HA. r3 HB. destruct (feqb (pz P) fzero) eqn:EP.
    - apply (feqb_eq OL) in EP. cbn [andb orb]. destruct A as [[x y]|]; cbn [rep3] in HA; [tauto|]. tauto.
    - cbn [andb orb negb]. assert (HP : pz P <> fzero) by (intro HH; rewrite (proj2 (feqb_eq OL _ _) HH) in EP; discriminate EP).
      rewrite andb_true_iff, !(feqb_eq OL). split.
      + intros [EX EY]. right. eapply (rep3_cross FL b); [exact HA|exact HB|exact EX|exact EY].
      + intros [->|<-]; cbn [rep3] in *; [tauto|].
        destruct A as [[x y]|]; cbn [rep3] in HA, HB; [|tauto].
        destruct HA as (_ & -> & -> & _), HB as (_ & -> & -> & _). split; ring.
  Qed.

  (** the group *)
  Definition onb (A : point F) : bool :=
    match A with None => true | Some (x, y) => feqb (fmul y y) (fadd (fmul (fmul x x) x) b) end.
  Lemma onb_spec A : onb A = true <-> on A.
  Proof. destruct A as [[x y]|]; cbn [onb on_curve]; [apply (feqb_eq OL)|tauto]. Qed.
  Definition ecp : Type := { A : point F | onb A = true }.
  Lemma ec_on (A : ecp) : on (proj1_sig A).
  Proof. apply onb_spec. exact (proj2_sig A). Qed.
  Lemma ec_eq (A B : ecp) : proj1_sig A = proj1_sig B -> A = B.
  Proof.
    destruct A as [A HA], B as [B HB]. cbn [proj1_sig]. intro E. subst B. f_equal. apply UIP_dec. apply bool_dec.
  Qed.
  Definition ec_mk (A : point F) (H : on A) : ecp := exist _ A (proj2 (onb_spec A) H).
  Definition ec_add (A B : ecp) : ecp := ec_mk _ (gadd_on FL b no_root _ _ (ec_on A) (ec_on B)).
  Definition ec_neg (A : ecp) : ecp := ec_mk _ (opposite_on FL b _ (ec_on A)).
  Definition ec_zero : ecp := ec_mk None I.
  Definition ECG : AbGroup.
  Proof.
    refine {| GT := ecp; g0 := ec_zero; gp := ec_add; gn := ec_neg |}.
    - intros A B D. apply ec_eq. symmetry. apply (gadd_assoc FL b no_root); apply ec_on.
    - intros A B. apply ec_eq. apply (gadd_comm FL b no_root); apply ec_on.
    - intros A. apply ec_eq. reflexivity.
    - intros A. apply ec_eq. apply (gadd_opposite FL).
  Defined.

  Definition ecrep (P : C) (g : ECG) : Prop := represents P (proj1_sig g).
  Lemma ecrep_ex (P : C) (A : point F) : represents P A -> exists g, ecrep P g /\ proj1_sig g = A.
  Proof. intro H. exists (ec_mk A (rep_on P A H)). split; [exact H|reflexivity]. Qed.
  Lemma ecrep_zero : ecrep c_zero g0. Proof. exact rep_zero. Qed.
  Lemma ecrep_add P Q g h : ecrep P g -> ecrep Q h -> ecrep (c_add P Q) (gp g h).
  Proof. apply rep_add. Qed.
  Lemma ecrep_double P g : ecrep P g -> ecrep (c_double P) (gp g g).
  Proof. apply rep_double. Qed.
  Lemma ecrep_neg P g : ecrep P g -> ecrep (c_neg P) (gn g).
  Proof. apply rep_neg. Qed.
  Lemma ecrep_sub P Q g h : ecrep P g -> ecrep Q h -> ecrep (c_sub P Q) (gp g (gn h)).
  Proof. apply rep_sub. Qed.
  Lemma ecrep_mul P (s : S) g : ecrep P g -> ecrep (c_mul P s) (zmul (vs s) g).
  Proof.
    intro H. change (c_mul P s) with (pt_mul F S b3 P s). unfold pt_mul.
    destruct (fl_to_bytes _ _ _ SL s) as (HL & HB & HV).
    assert (Hlt : (le_val (f_to_bytes s) < 2 ^ 255)%Z).
    { rewrite HV. pose proof (ol_range _ _ _ SO s). pose proof (fl_size _ _ _ SL). lia. }
    rewrite <- HV, <- (skip_top _ HL HB Hlt).
    assert (G : forall l acc n, ecrep acc (zmul n g) -> ecrep (fold_left (fun acc (bit : bool) =>
      let acc := pt_double F b3 acc in pt_select F acc (pt_add F b3 acc P) bit) l acc) (zmul (msb_val n l) g)).
    { induction l as [|x l IH]; intros acc n Ha; cbn [fold_left]; [exact Ha|].
      unfold msb_val. cbn [fold_left]. apply IH. cbv zeta.
      assert (HD : ecrep (pt_double F b3 acc) (zmul (2 * n) g)) by (rewrite zmul_double; apply (ecrep_double acc), Ha).
      replace (pt_select F (pt_double F b3 acc) (pt_add F b3 (pt_double F b3 acc) P) x)
        with (if x then pt_add F b3 (pt_double F b3 acc) P else pt_double F b3 acc)
        by (symmetry; apply (select_spec (pt_double F b3 acc) (pt_add F b3 (pt_double F b3 acc) P) x)).
      destruct x; cbn [Z.b2z].
      - rewrite zmul_add, zmul_1. apply (ecrep_add (pt_double F b3 acc) P); [exact HD|exact H].
      - rewrite Z.add_0_r. exact HD. }
    apply G. exact ecrep_zero.
  Qed.

  (** [multiple] of the specification is [zmul] *)
  Lemma multiple_zmul (g : ECG) n B : multiple (proj1_sig g) n B <-> B = proj1_sig (zmul (Z.of_nat n) g).
  Proof.
    split.
    - revert B. induction n as [|n IH]; intros B H.
      + inversion H. reflexivity.
      + inversion H as [|m B' C' HM HS]; subst. rewrite Nat2Z.inj_succ, zmul_succ.
        rewrite (IH _ HM) in HS. apply (sum_fun FL b no_root) in HS; [|apply ec_on|apply ec_on]. exact HS.
    - intros ->. induction n as [|n IH]; [constructor|].
      rewrite Nat2Z.inj_succ, zmul_succ. econstructor; [exact IH|]. apply (gadd_sum FL b no_root); apply ec_on.
  Qed.
  Lemma sum_gp (g h : ECG) B : sum_of (proj1_sig g) (proj1_sig h) B <-> B = proj1_sig (gp g h).
  Proof.
    split.
    - intro H. apply (sum_fun FL b no_root) in H; [exact H|apply ec_on|apply ec_on].
    - intros ->. apply (gadd_sum FL b no_root); apply ec_on.
  Qed.

  (** compression *)
  Lemma split_last (bs : list Z) : length bs = 32%nat -> exists l x, bs = l ++ [x] /\ length l = 31%nat.
  Proof.
    intro H. exists (firstn 31 bs), (nth 31 bs 0%Z). split; [|rewrite firstn_length; lia].
    rewrite <- (firstn_skipn 31 bs) at 1. f_equal.
    do 32 (destruct bs as [|? bs]; [discriminate H|]). destruct bs; [reflexivity|discriminate H].
  Qed.
  Lemma map_last_app f l x : length l = 31%nat -> map_last_byte f (l ++ [x]) = l ++ [f x].
  Proof.
    intro H. unfold map_last_byte. rewrite firstn_app, skipn_app, H, Nat.sub_diag, firstn_all2, skipn_all2 by lia.
    cbn [firstn skipn app map]. rewrite app_nil_r. reflexivity.
  Qed.
  Lemma le_val_app l l' : le_val (l ++ l') = (le_val l + 256 ^ Z.of_nat (length l) * le_val l')%Z.
  Proof.
    induction l as [|x l IH]; cbn [app le_val length]; [change (256 ^ Z.of_nat 0)%Z with 1%Z; lia|].
    rewrite IH, Nat2Z.inj_succ, Z.pow_succ_r by lia. ring.
  Qed.
  Lemma le_val_nonneg l : Forall byte l -> (0 <= le_val l)%Z.
  Proof. induction 1 as [|x l [Hx _] _ IH]; cbn [le_val]; lia. Qed.

  Lemma lor_128 t : (0 <= t < 128)%Z -> Z.lor t 128 = (t + 128)%Z.
  Proof.
    intro H. assert (E : forallb (fun n => Z.lor (Z.of_nat n) 128 =? Z.of_nat n + 128)%Z (seq 0 128) = true) by (vm_compute; reflexivity).
    rewrite forallb_forall in E. specialize (E (Z.to_nat t)). rewrite Z2Nat.id in E by lia.
    apply Z.eqb_eq, E. apply in_seq. lia.
  Qed.
  Lemma land_127 t : Z.land t 0x7f = (t mod 128)%Z.
  Proof. change 0x7f%Z with (Z.ones 7). apply Z.land_ones. lia. Qed.
  Lemma to_bytes_split (x : F) : exists l t, f_to_bytes x = l ++ [t] /\ length l = 31%nat /\ Forall byte l /\ (0 <= t < 128)%Z.
  Proof.
    destruct (fl_to_bytes _ _ _ FL x) as (HL & HB & HV). destruct (split_last _ HL) as (l & t & E & Hl).
    exists l, t. split; [exact E|]. split; [exact Hl|]. rewrite E in HB, HV. apply Forall_app in HB. destruct HB as [HB1 HB2].
    split; [exact HB1|]. inversion_clear HB2 as [|? ? [Ht _] _]. split; [exact Ht|].
    rewrite le_val_app, Hl in HV. cbn [le_val] in HV. pose proof (le_val_nonneg _ HB1).
    pose proof (ol_range _ _ _ OL x). pose proof (fl_size _ _ _ FL). change (256 ^ Z.of_nat 31)%Z with (2 ^ 248)%Z in HV.
    change (2 ^ 255)%Z with (2 ^ 248 * 128)%Z in *. nia.
  Qed.
  Lemma lor_sign t (y : F) : (0 <= t < 128)%Z -> Z.lor t (Z.shiftl (sgn (v := v) y) 7) = (t + 128 * sgn (v := v) y)%Z.
  Proof.
    intro Ht. destruct (sgn_01 (v := v) y) as [->| ->].
    - change (Z.shiftl 0 7) with 0%Z. rewrite Z.lor_0_r. lia.
    - change (Z.shiftl 1 7) with 128%Z. rewrite lor_128 by exact Ht. lia.
  Qed.
  Lemma from_bytes_iff bs (x : F) : length bs = 32%nat -> Forall byte bs ->
    (f_from_bytes bs = Some x <-> bs = f_to_bytes x).
  Proof.
    intros HL HB. destruct (fl_from_bytes _ _ _ FL bs HL HB) as [H1 H2]. destruct (fl_to_bytes _ _ _ FL x) as (XL & XB & XV).
    split.
    - intro E. destruct (Z_lt_le_dec (le_val bs) p) as [Hlt|Hge]; [|rewrite (H2 Hge) in E; discriminate E].
      destruct (H1 Hlt) as (a & E1 & E2). assert (a = x) by congruence. subst a.
      assert (E3 : le_val bs = le_val (f_to_bytes x)) by lia.
      clear - E3 HL HB XL XB. revert HL XL E3. generalize 32%nat. generalize dependent (f_to_bytes x). 
      induction bs as [|y bs IH]; intros [|z l] XB n HL XL E; cbn [length] in *; try (subst n; discriminate); [reflexivity|].
      cbn [le_val] in E. inversion_clear HB as [|? ? [? ?] ?]. inversion_clear XB as [|? ? [? ?] ?].
      assert (y = z) by lia. subst z. f_equal. destruct n as [|n]; [discriminate HL|].
      eapply IH with (n := n); [assumption|assumption|lia|lia|lia].
    - intros ->. rewrite XV in *. destruct (H1 (proj2 (ol_range _ _ _ OL x))) as (a & -> & E). f_equal. apply (ol_inj _ _ _ OL), E.
  Qed.
  Lemma encode_split (x : F) (y : F) l t : f_to_bytes x = l ++ [t] -> length l = 31%nat -> (0 <= t < 128)%Z ->
    map_last_byte (fun b => Z.lor b (Z.shiftl (Z.land (nth 0 (f_to_bytes y) 0) 1) 7)) (f_to_bytes x) = l ++ [(t + 128 * sgn (v := v) y)%Z].
  Proof. intros E Hl Ht. rewrite E, map_last_app by exact Hl. rewrite (sgn_code FL), lor_sign by exact Ht. reflexivity. Qed.

  Lemma to_bytes_rep (P : C) (A : point F) : represents P A ->
    c_to_bytes P = match A with
      | None => repeat 0%Z 32
      | Some (x, y) => map_last_byte (fun b => Z.lor b (Z.shiftl (Z.land (nth 0 (f_to_bytes y) 0%Z) 1) 7)) (f_to_bytes x)
      end.
  Proof.
    intro H. change (c_to_bytes P) with (pt_to_bytes F P). unfold pt_to_bytes. change (pt_is_zero F P) with (c_is_zero P).
    change (pt_get_xy F P) with (c_get_xy P). rewrite (get_xy_rep P A H).
    pose proof (is_zero_spec P A H) as HZ. destruct A as [[x y]|].
    - destruct (c_is_zero P); [|reflexivity]. pose proof (proj1 HZ eq_refl) as HH. discriminate HH.
    - rewrite (proj2 HZ eq_refl). reflexivity.
  Qed.
  Lemma zero_bytes : f_to_bytes (@fzero F) = repeat 0%Z 32.
  Proof.
    symmetry. apply (proj1 (from_bytes_iff (repeat 0%Z 32) fzero eq_refl ltac:(apply Forall_forall; intros z Hz; apply repeat_spec in Hz; subst z; split; lia))).
    destruct (fl_from_bytes _ _ _ FL (repeat 0%Z 32) eq_refl) as [H1 _].
    { apply Forall_forall. intros z Hz. apply repeat_spec in Hz. subst z. split; lia. }
    change (le_val (repeat 0%Z 32)) with 0%Z in H1. pose proof (ol_odd _ _ _ OL).
    destruct (H1 ltac:(lia)) as (a & -> & E). f_equal. apply (v_zero FL), E.
  Qed.
  Lemma byte_shape l t s : length l = 31%nat -> Forall byte l -> (0 <= t < 128)%Z -> (s = 0 \/ s = 1)%Z ->
    length (l ++ [t + 128 * s]%Z) = 32%nat /\ Forall byte (l ++ [t + 128 * s]%Z).
  Proof.
    intros H1 H2 H3 H4. rewrite app_length, H1. split; [reflexivity|]. apply Forall_app. split; [exact H2|].
    constructor; [unfold byte; lia|constructor].
  Qed.
  Lemma to_bytes_shape (P : C) (A : point F) : represents P A -> length (c_to_bytes P) = 32%nat /\ Forall byte (c_to_bytes P).
  Proof.
    intro H. rewrite (to_bytes_rep P A H). destruct A as [[x y]|].
    - destruct (to_bytes_split x) as (l & t & E & Hl & Hb & Ht). rewrite (encode_split x y l t E Hl Ht).
      apply byte_shape; try assumption. apply (sgn_01 (v := v)).
    - split; [reflexivity|]. apply Forall_forall. intros z Hz. apply repeat_spec in Hz. subst z. split; lia.
  Qed.
  (** decoding a string whose last byte is split into its low bits and its top bit *)
  Lemma from_bytes_split l t s : length l = 31%nat -> Forall byte l -> (0 <= t < 128)%Z -> (s = 0 \/ s = 1)%Z ->
    pt_from_bytes F b (l ++ [t + 128 * s]%Z) =
    match f_from_bytes (l ++ [t]) with
    | None => None
    | Some x => if is_zero F x && (s =? 0)%Z then Some (pt_zero F)
                else match f_sqrt (fadd (fmul (fmul x x) x) b) with
                     | None => None
                     | Some y => Some (mkPt x (if Z.eqb (sgn (v := v) y) s then y else fneg y) fone)
                     end
    end.
  Proof.
    intros Hl Hb Ht Hs. unfold pt_from_bytes. rewrite map_last_app by exact Hl.
    rewrite app_nth2 by lia. rewrite Hl, Nat.sub_diag. cbn [nth]. rewrite land_127.
    assert (E1 : ((t + 128 * s) mod 128 = t)%Z) by (destruct Hs; subst s; Z.div_mod_to_equations; lia).
    assert (E2 : (Z.shiftr (t + 128 * s) 7 =? 1)%Z = (s =? 1)%Z).
    { rewrite Z.shiftr_div_pow2 by lia. change (2 ^ 7)%Z with 128%Z. f_equal. destruct Hs; subst s; Z.div_mod_to_equations; lia. }
    rewrite E1, E2. destruct (f_from_bytes (l ++ [t])) as [x|]; [|reflexivity].
    replace (negb (s =? 1)%Z) with (s =? 0)%Z by (destruct Hs; subst s; reflexivity).
    destruct (is_zero F x && (s =? 0)%Z); [reflexivity|]. rewrite !(fsquare_mul OL).
    destruct (f_sqrt (fadd (fmul (fmul x x) x) b)) as [y|]; [|reflexivity]. rewrite (sgn_code FL).
    f_equal. f_equal. destruct (sgn_01 (v := v) y) as [->| ->]; destruct Hs; subst s; reflexivity.
  Qed.
  Lemma sqrt_some (a y : F) : f_sqrt a = Some y -> fmul y y = a.
  Proof.
    intro E. apply (fl_sqrt_some _ _ _ FL) in E. apply (ol_inj _ _ _ OL). rewrite (ol_mul _ _ _ OL). exact E.
  Qed.
  Lemma sqrt_none (a y : F) : f_sqrt a = None -> fmul y y <> a.
  Proof.
    intros E H. apply (fl_sqrt_none _ _ _ FL) with (z := v y) in E. apply E. rewrite <- (ol_mul _ _ _ OL), H. reflexivity.
  Qed.
  Lemma decode_encode (P : C) (A : point F) : represents P A ->
    exists Q : C, c_from_bytes (c_to_bytes P) = Some Q /\ represents Q A.
  Proof.
    intro H. rewrite (to_bytes_rep P A H). pose proof (rep_on P A H) as HO.
    assert (G : exists Q : Pt F, pt_from_bytes F b (match A with
      | None => repeat 0%Z 32
      | Some (x, y) => map_last_byte (fun b => Z.lor b (Z.shiftl (Z.land (nth 0 (f_to_bytes y) 0%Z) 1) 7)) (f_to_bytes x)
      end) = Some Q /\ represents (C := C) Q A); [|exact G].
    destruct A as [[x y]|].
    - destruct (to_bytes_split x) as (l & t & E & Hl & Hb & Ht). rewrite (encode_split x y l t E Hl Ht).
      rewrite from_bytes_split; [|assumption|assumption|assumption|apply (sgn_01 (v := v))]. rewrite <- E.
      destruct (fl_to_bytes _ _ _ FL x) as (XL & XB & _).
      rewrite (proj2 (from_bytes_iff _ x XL XB) eq_refl).
      replace (is_zero F x) with false.
      2:{ symmetry. destruct (is_zero F x) eqn:EZ; [|reflexivity]. apply is_zero_F in EZ. destruct (x_nonzero _ _ HO EZ). }
      cbn [andb]. pose proof HO as HO'. cbn [on_curve] in HO'.
      destruct (f_sqrt (fadd (fmul (fmul x x) x) b)) as [y'|] eqn:ES.
      + apply sqrt_some in ES. rewrite <- HO' in ES. eexists. split; [reflexivity|].
        assert (Ey : (if (sgn (v := v) y' =? sgn (v := v) y)%Z then y' else fneg y') = y).
        { destruct (Z.eqb_spec (sgn (v := v) y') (sgn (v := v) y)) as [HS|HS].
          - symmetry. apply (sgn_inj FL); [exact (y_nonzero FL b no_root _ _ HO)|symmetry; exact ES|symmetry; exact HS].
          - symmetry in ES. apply (square_eq OL) in ES. destruct ES as [ES|ES]; [congruence|symmetry; exact ES]. }
        rewrite Ey. apply (from_xy_unchecked_rep x y HO).
      + exfalso. apply (sqrt_none _ y ES). exact HO'.
    - exists (pt_zero F). split; [|exact rep_zero].
      change (repeat 0%Z 32) with (repeat 0%Z 31 ++ [0 + 128 * 0]%Z).
      rewrite from_bytes_split; [|reflexivity| |lia|lia].
      2:{ apply Forall_forall. intros z Hz. apply repeat_spec in Hz. subst z. split; lia. }
      change (repeat 0%Z 31 ++ [0%Z]) with (repeat 0%Z 32). rewrite <- zero_bytes.
      destruct (fl_to_bytes _ _ _ FL fzero) as (XL & XB & _).
      rewrite (proj2 (from_bytes_iff _ fzero XL XB) eq_refl). rewrite (proj2 (is_zero_F fzero) eq_refl). reflexivity.
  Qed.
  Lemma encode_decode bs (Q : C) : length bs = 32%nat -> Forall byte bs -> c_from_bytes bs = Some Q ->
    (exists A : point F, represents Q A) /\ c_to_bytes Q = bs.
  Proof.
    intros HL HB E. destruct (split_last _ HL) as (l & t0 & -> & Hl). apply Forall_app in HB. destruct HB as [HB HT].
    inversion_clear HT as [|? ? Ht _]. unfold byte in Ht.
    assert (Ht0 : exists t s, t0 = (t + 128 * s)%Z /\ (0 <= t < 128)%Z /\ (s = 0 \/ s = 1)%Z).
    { exists (t0 mod 128)%Z, (t0 / 128)%Z. split; [|split]; Z.div_mod_to_equations; lia. }
    destruct Ht0 as (t & s & -> & Ht' & Hs).
    change (pt_from_bytes F b (l ++ [t + 128 * s]%Z) = Some Q) in E.
    rewrite from_bytes_split in E by assumption.
    assert (HLT : length (l ++ [t]) = 32%nat /\ Forall byte (l ++ [t])).
    { pose proof (byte_shape l t 0 Hl HB Ht' ltac:(lia)) as HH. rewrite Z.mul_0_r, Z.add_0_r in HH. exact HH. }
    destruct HLT as [HLT HBT]. destruct (f_from_bytes (l ++ [t])) as [x|] eqn:EX; [|discriminate E].
    apply (proj1 (from_bytes_iff _ _ HLT HBT)) in EX.
    destruct (is_zero F x && (s =? 0)%Z) eqn:EZ.
    - apply andb_prop in EZ. destruct EZ as [EZ ES]. apply is_zero_F in EZ. apply Z.eqb_eq in ES. subst x s.
      assert (Q = c_zero) as -> by (symmetry; apply (f_equal (fun o => match o with Some q => q | None => pt_zero F end) E)).
      pose proof rep_zero as HR. split; [exists None; exact HR|]. rewrite (to_bytes_rep _ None HR).
      rewrite <- zero_bytes, <- EX, Z.mul_0_r, Z.add_0_r. reflexivity.
    - destruct (f_sqrt (fadd (fmul (fmul x x) x) b)) as [y|] eqn:ES; [|discriminate E].
      apply sqrt_some in ES. set (y' := if (sgn (v := v) y =? s)%Z then y else fneg y) in *.
      assert (HO : on (Some (x, y'))).
      { cbn [on_curve]. rewrite <- ES. unfold y'. destruct (sgn (v := v) y =? s)%Z; ring. }
      assert (HR : represents Q (Some (x, y'))).
      { replace Q with (@c_from_xy_unchecked C x y') by (apply (f_equal (fun o => match o with Some q => q | None => pt_zero F end) E)).
        apply from_xy_unchecked_rep, HO. }
      split; [exists (Some (x, y')); exact HR|]. rewrite (to_bytes_rep _ _ HR).
      rewrite (encode_split x y' l t (eq_sym EX) Hl Ht'). f_equal. f_equal. f_equal. f_equal.
      unfold y'. destruct (Z.eqb_spec (sgn (v := v) y) s) as [HS|HS]; [exact HS|].
      assert (Hy : y <> fzero).
      { intros ->. apply (y_nonzero FL b no_root _ _ HO). unfold y'. ring. }
      rewrite (sgn_neg FL) by exact Hy. pose proof (sgn_01 (v := v) y). lia.
  Qed.
End Code.
