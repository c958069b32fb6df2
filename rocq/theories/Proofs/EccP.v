(** Soundness and completeness of the gadgets of ecc.rs. *)
From Coq Require Import String List Bool ZArith Lia Ring Field.
From Verif Require Import Lib.AbGroup Model.FieldTrait Model.Circuits Model.Num Model.Boolean Model.Curve Model.Ecc
  Spec.FieldLaws Spec.CircuitSpec Spec.NumSpec Spec.BoolSpec Spec.CurveSpec Spec.CurveLaws Spec.UtilSpec Spec.EccSpec
  Proofs.FieldGen Proofs.CircuitP Proofs.LcP Proofs.NumP Proofs.BoolP Proofs.CurveTop.
Import ListNotations.
Open Scope list_scope. Open Scope type_scope.

Lemma fresh_exec {F : Field} {A} (p : Prog F A) : forall n, Exec p (fst (fresh_run n p)) (snd (fresh_run n p)).
Proof.
  induction p as [a| |s v k IH|s v k IH|lc k IH|s v k IH|s k IH|k IH]; intro n; cbn [fresh_run].
  - constructor.
  - constructor.
  - specialize (IH (Ok (VA n, false)) (S n)). destruct (fresh_run (S n) _) as [tr r]. econstructor. exact IH.
  - specialize (IH (Ok (VA n, false)) (S n)). destruct (fresh_run (S n) _) as [tr r]. econstructor. exact IH.
  - specialize (IH n). destruct (fresh_run n k) as [tr r]. econstructor. exact IH.
  - specialize (IH (Ok (VA n, VB n, VC n, false)) (S n)). destruct (fresh_run (S n) _) as [tr r]. econstructor. exact IH.
  - constructor. apply IH.
  - constructor. apply IH.
Qed.

(** ** Tactics *)
Ltac ecc_lcg OL w := unfold num_lc; cbn [num_var bit_var]; repeat first [ rewrite (lc_val_sub_v OL) | rewrite (lc_val_add_v OL)
  | rewrite (lc_val_from OL) | rewrite (lc_val_add_cv OL) | rewrite (lc_val_sub_cv OL) | rewrite (lc_val_add_lc OL)
  | rewrite (lc_val_sub_lc OL) | rewrite lc_val_zero ];
  repeat match goal with H : lc_val w ?l = _ |- context [lc_val w ?l] => rewrite H end;
  repeat match goal with H : w ?x = _ |- context [w ?x] => rewrite H end; cbn [coeff_val].
Ltac ecc_lch OL w H := unfold num_lc in H; cbn [num_var bit_var] in H; repeat first [ rewrite (lc_val_sub_v OL) in H | rewrite (lc_val_add_v OL) in H
  | rewrite (lc_val_from OL) in H | rewrite (lc_val_add_cv OL) in H | rewrite (lc_val_sub_cv OL) in H | rewrite (lc_val_add_lc OL) in H
  | rewrite (lc_val_sub_lc OL) in H | rewrite lc_val_zero in H ];
  repeat match goal with H0 : lc_val w ?l = _ |- _ => rewrite H0 in H end; cbn [coeff_val] in H.
Ltac allocs := repeat (cbv beta iota zeta; lazymatch goal with |- complete _ (bind (namespace _ (num_alloc _)) _) _ =>
    apply complete_namespace_k; unfold num_alloc at 1; apply complete_assoc; eapply complete_alloc_k; [reflexivity|intros];
    apply complete_ret_k end); cbv beta iota zeta; cbn [ok rbind].
Ltac mul t := eapply complete_multiply_k; [reflexivity|t|intros]; cbv beta iota zeta.

Section EccP.
  Context {C : Curve} {q vb r vs} (CL : CurveLaws C q vb r vs) (one : Var).
  Notation F := (Base C).
  Let FL : FieldLaws F q vb := cl_base _ _ _ _ _ CL.
  Let OL : OpsLaws F q vb := fl_ops _ _ _ FL.
  Add Field Ff : (ffield OL).
  Variable w : assignment F.
  Hypothesis w_one : w one = fone.
  Notation onc := (on_curve (c_b C)).

  (** ** Facts about the curve *)
  Lemma ordinate_zero (A : point F) : onc A -> ordinate A = fzero -> A = infinity.
  Proof.
    destruct A as [[x y]|]; [|reflexivity]. cbn [on_curve ordinate]. intros H ->. exfalso.
    apply (cl_no_root _ _ _ _ _ CL x). rewrite <- H. ring.
  Qed.
  Lemma abscissa_zero (A : point F) : onc A -> abscissa A = fzero -> A = infinity.
  Proof.
    destruct A as [[x y]|]; [|reflexivity]. cbn [on_curve abscissa]. intros H ->. exfalso.
    apply (cl_b_nonsquare _ _ _ _ _ CL y). rewrite H. ring.
  Qed.
  Lemma same_abscissa (A B : point F) : onc A -> onc B -> finite A -> finite B -> abscissa A = abscissa B ->
    A = B \/ A = opposite B.
  Proof.
    destruct A as [[x y]|]; [|intros _ _ H; elim H; reflexivity].
    destruct B as [[x' y']|]; [|intros _ _ _ H; elim H; reflexivity].
    cbn [on_curve abscissa opposite]. intros HA HB _ _ <-.
    assert (E : fmul (fsub y y') (fadd y y') = fzero).
    { transitivity (fsub (fmul y y) (fmul y' y')); [ring|]. rewrite HA, HB. ring. }
    apply (fmul_zero OL) in E. destruct E as [E|E].
    - left. apply (proj1 (fsub_zero OL _ _)) in E. congruence.
    - right. f_equal. f_equal. transitivity (fsub (fadd y y') y'); [ring|]. rewrite E. ring.
  Qed.
  Lemma double_nonzero (y : F) : y <> fzero -> fadd y y <> fzero.
  Proof.
    intros H E. apply H. assert (E2 : fmul (fadd fone fone) y = fzero) by (rewrite <- E; ring).
    apply (fmul_zero OL) in E2. destruct E2 as [E2|E2]; [|exact E2]. elim (ftwo_neq_zero OL). exact E2.
  Qed.
  Lemma sum_fun (A B D D' : point F) : onc A -> onc B -> sum_of A B D -> sum_of A B D' -> D = D'.
  Proof.
    intros HA HB H1 H2. destruct (cl_onto _ _ _ _ _ CL A HA) as (g & <-). destruct (cl_onto _ _ _ _ _ CL B HB) as (h & <-).
    apply (cl_sum _ _ _ _ _ CL) in H1. apply (cl_sum _ _ _ _ _ CL) in H2. congruence.
  Qed.
  Lemma sum_on (A B D : point F) : onc A -> onc B -> sum_of A B D -> onc D.
  Proof.
    intros HA HB H. destruct (cl_onto _ _ _ _ _ CL A HA) as (g & <-). destruct (cl_onto _ _ _ _ _ CL B HB) as (h & <-).
    apply (cl_sum _ _ _ _ _ CL) in H. subst D. apply (cl_on _ _ _ _ _ CL).
  Qed.

  Lemma invert_some (x : F) : x <> fzero -> exists i, f_invert x = Some i /\ fmul i x = fone.
  Proof.
    intro H. destruct (fl_invert _ _ _ FL x) as (i & H1 & H2).
    { intro E. apply H. apply (v_eq_zero OL). exact E. }
    exists i. split; [exact H1|]. apply (ol_inj _ _ _ OL). rewrite (ol_mul _ _ _ OL), (ol_one _ _ _ OL), Z.mul_comm. exact H2.
  Qed.
  Lemma invert_none : f_invert (fzero : F) = None.
  Proof. apply (fl_invert_zero _ _ _ FL). apply (ol_zero _ _ _ OL). Qed.
  Lemma from_u64_3 : f_from_u64 3 = fadd (fadd fone fone) fone :> F.
  Proof.
    pose proof (fl_size _ _ _ FL) as Hs. assert (3 < q)%Z by (apply Z.lt_trans with (2 ^ 254)%Z; [reflexivity|apply Hs]). clear Hs.
    apply (ol_inj _ _ _ OL). rewrite (fl_from_u64 _ _ _ FL) by lia. rewrite !(ol_add _ _ _ OL), !(ol_one _ _ _ OL).
    change (1 + 1)%Z with 2%Z. rewrite (Z.mod_small 2) by lia. symmetry. apply Z.mod_small. lia.
  Qed.
  Lemma from_u64_2 : f_from_u64 2 = fadd fone fone :> F.
  Proof.
    pose proof (fl_size _ _ _ FL) as Hs. assert (3 < q)%Z by (apply Z.lt_trans with (2 ^ 254)%Z; [reflexivity|apply Hs]). clear Hs.
    apply (ol_inj _ _ _ OL). rewrite (fl_from_u64 _ _ _ FL) by lia. rewrite !(ol_add _ _ _ OL), !(ol_one _ _ _ OL).
    symmetry. apply Z.mod_small. lia.
  Qed.

  (** ** Reading the parts of a point *)
  Lemma cp_parts P A : cp_has w P A -> onc A /\ n_value (cp_x P) = Some (abscissa A) /\ n_value (cp_y P) = Some (ordinate A)
    /\ bool_value (cp_id P) = Some (at_infinity A) /\ lc_val w (n_lc one (cp_x P)) = abscissa A
    /\ lc_val w (n_lc one (cp_y P)) = ordinate A /\ bool_is w (cp_id P) (at_infinity A)
    /\ lc_val w (bool_lc (cp_id P) one COne) = of_bit (at_infinity A).
  Proof.
    intros ((HA & X & Y & I) & OX & OY & OI). unfold n_ok in OX, OY. rewrite OX, OY, OI, X, Y, !(n_lc_val FL one w w_one), X, Y.
    rewrite (bool_lc1_val FL one w w_one _ _ I). tauto.
  Qed.
  Lemma cp_is_parts P A : cp_is w P A -> onc A /\ lc_val w (n_lc one (cp_x P)) = abscissa A
    /\ lc_val w (n_lc one (cp_y P)) = ordinate A /\ bool_is w (cp_id P) (at_infinity A)
    /\ lc_val w (bool_lc (cp_id P) one COne) = of_bit (at_infinity A).
  Proof.
    intros (HA & X & Y & I). rewrite !(n_lc_val FL one w w_one), X, Y.
    rewrite (bool_lc1_val FL one w w_one _ _ I). tauto.
  Qed.
  Lemma cp_has_intro (x y : Var) (a b : F) (id : Boolean) (A : point F) : onc A -> w x = a -> w y = b ->
    a = abscissa A -> b = ordinate A -> bool_is w id (at_infinity A) -> bool_value id = Some (at_infinity A) ->
    cp_has w (mkCP (n_from (mkNum (Some a) x)) (n_from (mkNum (Some b) y)) id) A.
  Proof.
    intros HA <- <- Ea Eb H1 H2. split; [split; [exact HA|]|].
    - cbn [cp_x cp_y cp_id]. rewrite !(n_from_val FL). unfold num_val. cbn [num_var]. tauto.
    - cbn [cp_x cp_y cp_id]. split; [apply (n_from_ok FL); reflexivity|]. split; [apply (n_from_ok FL); reflexivity|exact H2].
  Qed.
  Lemma cp_is_intro (x y : Var) va vb_ (id : Boolean) (A : point F) : onc A -> w x = abscissa A -> w y = ordinate A ->
    bool_is w id (at_infinity A) -> cp_is w (mkCP (n_from (mkNum va x)) (n_from (mkNum vb_ y)) id) A.
  Proof.
    intros HA Ea Eb H1. split; [exact HA|]. cbn [cp_x cp_y cp_id]. rewrite !(n_from_val FL). unfold num_val. cbn [num_var]. tauto.
  Qed.
  Lemma cp_has_is P A : cp_has w P A -> cp_is w P A. Proof. intros [H _]. exact H. Qed.

  Ltac lcg := ecc_lcg OL w.
  Ltac lcs := lcg; ring.
  Ltac lch H := ecc_lch OL w H; rewrite ?w_one in H.
  Ltac enf := eapply complete_enforce_k; [first [lcs|idtac]|]; cbv beta iota zeta.
  Ltac ssteps0 := unfold num_alloc; repeat sstep;
    repeat match goal with H : lc_val w _ = fzero |- _ => lch H end; eqz OL.
  Ltac ssteps := ssteps0; wires w.

  (** ** Doubling *)
  Lemma double_complete P A S : cp_has w P A -> sum_of A A S -> complete w (cp_double one P) (fun R => cp_has w R S).
  Proof.
    intros HP HS. destruct (cp_parts P A HP) as (HA & VX & VY & VI & LX & LY & BI & LI).
    assert (HO : onc S) by exact (sum_on _ _ _ HA HA HS).
    unfold cp_double. rewrite VX, VY, VI. cbn [rbind ok_or_missing option_map]. rewrite !(fb_of_bit FL).
    set (x := abscissa A) in *. set (y := ordinate A) in *.
    assert (HL : exists l, match f_invert (fadd y y) with
        | Some inv_2yp => Ok (fmul inv_2yp (fadd (fadd (fmul x x) (fmul x x)) (fmul x x)))
        | None => Ok fzero end = Ok l /\ fmul (fadd y y) l = fadd (fadd (fmul x x) (fmul x x)) (fmul x x)
        /\ fmul l (of_bit (at_infinity A)) = fzero /\ fsub (fsub (fmul l l) x) x = abscissa S
        /\ fsub (fmul l (fsub x (fsub (fsub (fmul l l) x) x))) y = ordinate S /\ at_infinity S = at_infinity A).
    { destruct A as [[x0 y0]|].
      - assert (Hy : y <> fzero) by (intro E; discriminate (ordinate_zero _ HA E)).
        destruct (invert_some _ (double_nonzero y Hy)) as (i & -> & Hi). eexists. split; [reflexivity|].
        split; [transitivity (fmul (fmul i (fadd y y)) (fadd (fadd (fmul x x) (fmul x x)) (fmul x x))); [ring|rewrite Hi; ring]|].
        split; [simpl; ring|].
        assert (E : S = third (fmul i (fadd (fadd (fmul x x) (fmul x x)) (fmul x x))) x y x).
        { apply (sum_fun _ _ _ _ HA HA HS). apply sum_tangent; [exact Hy|].
          transitivity (fmul (fmul i (fadd y y)) (fadd (fadd (fmul x x) (fmul x x)) (fmul x x))); [ring|rewrite Hi; ring]. }
        rewrite E. cbn. tauto.
      - assert (E : S = None) by (apply (sum_fun _ _ _ _ HA HA HS); constructor). subst S.
        subst x y. cbn [abscissa ordinate at_infinity of_bit] in *. replace (fadd fzero fzero) with (fzero : F) by ring.
        rewrite invert_none. exists fzero. repeat split; ring. }
    destruct HL as (l & -> & H1 & H2 & H3 & H4 & H5). cbn [rbind].
    allocs.
    mul ltac:(reflexivity). enf. enf.
    mul ltac:(exact H1). enf. enf.
    mul ltac:(ring). enf. enf. enf.
    mul ltac:(ring). enf. enf. enf.
    mul ltac:(exact H2). enf. enf. enf.
    apply complete_ret. apply cp_has_intro; try assumption; rewrite H5; assumption.
  Qed.
  Lemma double_sound P A S : cp_is w P A -> sum_of A A S -> sound w (cp_double one P) (fun R => cp_is w R S).
  Proof.
    intros HP HS. destruct (cp_is_parts P A HP) as (HA & LX & LY & BI & LI).
    assert (HO : onc S) by exact (sum_on _ _ _ HA HA HS).
    unfold cp_double. ssteps.
    destruct A as [[x1 y1]|]; cbn [abscissa ordinate at_infinity of_bit] in *.
    - assert (Hy : y1 <> fzero) by (intro E; discriminate (ordinate_zero _ HA E)).
      assert (E : S = third (w a3) x1 y1 x1).
      { apply (sum_fun _ _ _ _ HA HA HS). apply sum_tangent; [exact Hy|].
        transitivity (fmul (fadd y1 y1) (w a3)); [ring|]. rewrite <- H4. ring. }
      assert (E1 : w x = fsub (fsub (fmul (w a3) (w a3)) x1) x1) by (rewrite <- H8; ring).
      apply cp_is_intro; [exact HO| | |rewrite E; exact BI]; rewrite E; unfold third; cbv zeta; cbn [abscissa ordinate].
      + exact E1.
      + rewrite <- E1. transitivity (fsub (fadd y1 (w x0)) y1); [ring|]. rewrite H12. ring.
    - assert (E : S = None) by (apply (sum_fun _ _ _ _ HA HA HS); constructor). subst S.
      assert (E0 : w a3 = fzero) by (rewrite <- H16; ring). rewrite E0 in *.
      assert (E1 : w x = fzero) by (transitivity (fadd (fadd fzero fzero) (w x)); [ring|rewrite H8; ring]).
      apply cp_is_intro; [exact I|exact E1| |exact BI]. cbn [ordinate].
      transitivity (fadd fzero (w x0)); [ring|]. rewrite H12. ring.
  Qed.

  (** ** Conditional negation and endomorphism *)
  Definition cond_neg (b : bool) (A : point F) : point F := if b then opposite A else A.
  Definition cond_endo (b : bool) (A : point F) : point F := if b then endo A else A.
  Lemma opposite_on A : onc A -> onc (opposite A).
  Proof. destruct A as [[x y]|]; [|exact (fun H => H)]. cbn. intros <-. ring. Qed.
  Lemma endo_on A : onc A -> onc (endo A).
  Proof.
    destruct A as [[x y]|]; [|exact (fun H => H)]. cbn. intros ->. pose proof (cl_beta_base _ _ _ _ _ CL) as H.
    transitivity (fadd (fmul (fmul (fmul (BETA_BASE C) (BETA_BASE C)) (BETA_BASE C)) (fmul (fmul x x) x)) (c_b C)); [rewrite H|]; ring.
  Qed.
  Lemma cond_neg_on b A : onc A -> onc (cond_neg b A). Proof. destruct b; [apply opposite_on|exact (fun H => H)]. Qed.
  Lemma cond_endo_on b A : onc A -> onc (cond_endo b A). Proof. destruct b; [apply endo_on|exact (fun H => H)]. Qed.

  Lemma conditional_neg_complete P A c b : cp_has w P A -> bool_has w c b ->
    complete w (cp_conditional_neg one P c) (fun R => cp_has w R (cond_neg b A)).
  Proof.
    intros HP [HC VC]. destruct (cp_parts P A HP) as (HA & VX & VY & VI & LX & LY & BI & LI).
    unfold cp_conditional_neg. rewrite VY, VC. cbn [omap2 rbind ok_or_missing].
    pose proof (bool_lc_val FL one w w_one c b (CFull (f_from_u64 2)) HC) as LB. cbn [coeff_val] in LB. rewrite from_u64_2 in LB at 2.
    mul ltac:(destruct b; ring).
    enf. enf. { lcg. destruct b; cbn [of_bit]; ring. }
    apply complete_ret. destruct HP as ((_ & X & Y & I') & OX & OY & OI). split; [split; [apply cond_neg_on, HA|]|]; cbn [cp_x cp_y cp_id].
    - rewrite (n_from_val FL), X. unfold num_val. cbn [num_var]. rewrite H1. destruct A as [[x y]|], b; cbn in *; repeat split; auto; ring.
    - rewrite VI. split; [exact OX|]. split; [apply (n_from_ok FL); unfold num_ok, num_val; cbn [num_value num_var]; congruence|].
      destruct A as [[x y]|], b; reflexivity.
  Qed.
  Lemma conditional_neg_sound P A c b : cp_is w P A -> bool_is w c b ->
    sound w (cp_conditional_neg one P c) (fun R => cp_is w R (cond_neg b A)).
  Proof.
    intros HP HC. destruct (cp_is_parts P A HP) as (HA & LX & LY & BI & LI).
    pose proof (bool_lc_val FL one w w_one c b (CFull (f_from_u64 2)) HC) as LB. cbn [coeff_val] in LB. rewrite from_u64_2 in LB at 2.
    unfold cp_conditional_neg. ssteps0. destruct HP as (_ & X & Y & I'). split; [apply cond_neg_on, HA|]; cbn [cp_x cp_y cp_id].
    rewrite (n_from_val FL), X. unfold num_val. cbn [num_var]. wires w.
    destruct A as [[x y]|], b; cbn in *; repeat split; auto; ring.
  Qed.
  Lemma conditional_endo_complete P A c b : f_BETA = BETA_BASE C -> cp_has w P A -> bool_has w c b ->
    complete w (cp_conditional_endo one P c) (fun R => cp_has w R (cond_endo b A)).
  Proof.
    intros HB HP [HC VC]. destruct (cp_parts P A HP) as (HA & VX & VY & VI & LX & LY & BI & LI).
    unfold cp_conditional_endo. rewrite VX, VC. cbn [omap2 rbind ok_or_missing]. rewrite HB.
    pose proof (bool_lc_val FL one w w_one c b (CFull (fsub (BETA_BASE C) fone)) HC) as LB. cbn [coeff_val] in LB.
    mul ltac:(destruct b; ring).
    enf. enf. { lcg. destruct b; cbn [of_bit]; ring. }
    apply complete_ret. destruct HP as ((_ & X & Y & I') & OX & OY & OI). split; [split; [apply cond_endo_on, HA|]|]; cbn [cp_x cp_y cp_id].
    - rewrite (n_from_val FL), Y. unfold num_val. cbn [num_var]. rewrite H1. destruct A as [[x y]|], b; cbn in *; repeat split; auto; ring.
    - rewrite VI. split; [apply (n_from_ok FL); unfold num_ok, num_val; cbn [num_value num_var]; congruence|]. split; [exact OY|].
      destruct A as [[x y]|], b; reflexivity.
  Qed.
  Lemma conditional_endo_sound P A c b : f_BETA = BETA_BASE C -> cp_is w P A -> bool_is w c b ->
    sound w (cp_conditional_endo one P c) (fun R => cp_is w R (cond_endo b A)).
  Proof.
    intros HB HP HC. destruct (cp_is_parts P A HP) as (HA & LX & LY & BI & LI).
    pose proof (bool_lc_val FL one w w_one c b (CFull (fsub f_BETA fone)) HC) as LB. cbn [coeff_val] in LB.
    unfold cp_conditional_endo. ssteps0. destruct HP as (_ & X & Y & I'). split; [apply cond_endo_on, HA|]; cbn [cp_x cp_y cp_id].
    rewrite (n_from_val FL), Y. unfold num_val. cbn [num_var].
    match goal with H : fsub (w b0) fone = _ |- _ => assert (E : w b0 = fadd (fsub (w b0) fone) fone) by ring; rewrite H in E; clear H end.
    wires w. rewrite HB. destruct A as [[x y]|], b; cbn in *; repeat split; auto; ring.
  Qed.

  (** ** Witnessing a point *)
  Lemma coords_rep (p : C) A : represents p A -> coords_or_zero p = (abscissa A, ordinate A, at_infinity A).
  Proof. intro H. unfold coords_or_zero. rewrite (cl_get_xy _ _ _ _ _ CL p A H). destruct A as [[x y]|]; reflexivity. Qed.
  Lemma witness_complete p A : represents p A -> complete w (cp_witness one (Ok p)) (fun R => cp_has w R A).
  Proof.
    intro H. assert (HA : onc A) by exact (rep_on_curve p A H). unfold cp_witness. cbn [rbind]. rewrite (coords_rep p A H). cbn [rbind ok_or_missing].
    rewrite !(fb_of_bit FL). allocs.
    ccall (bit_alloc_complete FL one w (Ok (at_infinity A)) (at_infinity A) eq_refl). intros b [B1 B2].
    mul ltac:(reflexivity). enf. enf. mul ltac:(reflexivity). enf. enf. mul ltac:(reflexivity). enf. enf.
    pose proof B1 as B3. unfold bit_is in B3.
    mul ltac:(destruct A as [[xa ya]|]; cbn in *; [rewrite HA|]; ring). enf. enf.
    { lcg. destruct (at_infinity A); cbn [of_bit negb]; ring. } enf.
    apply complete_ret. apply cp_has_intro; try assumption; reflexivity.
  Qed.
  Lemma witness_sound p : sound w (cp_witness one p) (fun R => exists b, bool_is w (cp_id R) b /\ (b = false -> cp_is w R (Some (n_val w (cp_x R), n_val w (cp_y R))))).
  Proof.
    unfold cp_witness, num_alloc. do 8 sstep. scall (bit_alloc_sound FL w). intros b (v & B). unfold bit_is in B. cbn [bit_var].
    ssteps0. exists v. split; [exact B|]. intros ->. cbn [cp_x cp_y]. rewrite !(n_from_val FL). unfold num_val. cbn [num_var of_bit] in *.
    match goal with H : fsub (fadd fzero (fmul fone fone)) (w (bit_var b)) = w ?k |- _ =>
      assert (E : w k = fone) by (rewrite <- H, B; ring); clear H end.
    assert (HA : onc (Some (w x, w x0))). 
    { cbn [on_curve]. wires w.
      match goal with H : fmul _ fone = fzero |- _ => revert H end. intro H.
      symmetry. apply (proj1 (fsub_zero OL _ _)). rewrite <- H. ring. }
    apply cp_is_intro; [exact HA|reflexivity|reflexivity|exact B].
  Qed.
End EccP.
