From Coq Require Import String List Bool ZArith Lia Ring Field Arith.
From Verif Require Import Model.FieldTrait Model.Circuits Model.Num Spec.FieldLaws Spec.CircuitSpec
  Spec.NumSpec Spec.ExprSpec Proofs.FieldGen Proofs.CircuitP Proofs.LcP Proofs.NumP.
Import ListNotations.
Open Scope nat_scope.

Section ExprP.
  Context {F : Field} {p : Z} {v : F -> Z} (FL : FieldLaws F p v).
  Let OL : OpsLaws F p v := fl_ops _ _ _ FL.
  Add Field Ff : (ffield OL).

  Lemma cbuild_val (e : cexp F) : coeff_val (cbuild e) = cmean e.
  Proof.
    induction e; simpl; auto.
    - rewrite (coeff_neg_val OL), IHe. reflexivity.
    - rewrite (coeff_mul_f_val OL), IHe. reflexivity.
    - rewrite (coeff_mul_val OL), IHe1, IHe2. reflexivity.
    - rewrite (coeff_double_val OL), IHe. ring.
  Qed.
  Lemma coeff_meaning (e : cexp F) (x : F) :
    coeff_value (cbuild e) = cmean e /\ coeff_multiply (cbuild e) x = fmul (cmean e) x.
  Proof. rewrite coeff_value_val, (coeff_multiply_val OL), cbuild_val. auto. Qed.

  Lemma lbuild_val w (e : lexp F) : lc_val w (lbuild e) = lmean w e.
  Proof.
    induction e; cbn [lbuild lmean]; lcv OL; rewrite ?cbuild_val, ?IHe, ?IHe1, ?IHe2; reflexivity.
  Qed.

  Lemma lbuild_vars (e : lexp F) x : In x (map fst (lbuild e)) <-> In x (lvars e).
  Proof.
    assert (fold : forall (f : LC F -> Var * Coeff F -> LC F) other lc,
      (forall acc s, map fst (f acc s) = map fst acc ++ [fst s]) ->
      map fst (fold_left f other lc) = map fst lc ++ map fst other).
    { intros f other. induction other as [|s other IH]; intros lc H; simpl; [now rewrite app_nil_r|].
      rewrite IH, H, <- app_assoc; auto. }
    induction e; cbn [lbuild lvars]; unfold lc_zero, lc_from, lc_add_v, lc_sub_v, lc_sub_cv, lc_add_cv,
      lc_add_lc, lc_sub_lc, lc_add_clc, lc_sub_clc.
    1,2: reflexivity.
    1-4: rewrite map_app, in_app_iff, IHe; simpl; tauto.
    all: rewrite fold by (intros; unfold lc_add_cv, lc_sub_cv, lc_add_cv; rewrite map_app; reflexivity);
      rewrite !in_app_iff, IHe1, IHe2; reflexivity.
  Qed.

  Lemma vec_get_spec {A} (l : list A) i d :
    (1 <= i <= length l -> vec_get l i = Some (nth (i - 1) l d)) /\
    (~ (1 <= i <= length l) -> vec_get l i = None).
  Proof.
    destruct i as [|i]; simpl; [split; [lia|auto]|]. rewrite Nat.sub_0_r. split; intro H.
    - apply nth_error_nth'. lia.
    - apply nth_error_None. lia.
  Qed.
  Lemma var_get_spec (a b c : list F) x :
    (in_vectors a b c x -> var_get a b c x = Some (of_vectors a b c x)) /\
    (~ in_vectors a b c x -> var_get a b c x = None).
  Proof. destruct x; simpl; apply vec_get_spec. Qed.
  Lemma in_vectors_dec (a b c : list F) x : {in_vectors a b c x} + {~ in_vectors a b c x}.
  Proof.
    destruct x; simpl;
      match goal with |- {1 <= ?i <= ?n} + {_} => destruct (le_dec 1 i), (le_dec i n) end;
      (left; lia) || (right; lia).
  Qed.

  Lemma lc_evaluate_from_val (a b c : list F) lc : forall acc,
    (Forall (in_vectors a b c) (map fst lc) ->
       lc_evaluate_from acc lc a b c = Some (fadd acc (lc_val (of_vectors a b c) lc))) /\
    (~ Forall (in_vectors a b c) (map fst lc) -> lc_evaluate_from acc lc a b c = None).
  Proof.
    induction lc as [|[x k] lc IH]; intro acc; simpl; split; intro H.
    - f_equal. ring.
    - destruct H. constructor.
    - inversion H; subst. rewrite (proj1 (var_get_spec a b c x)) by assumption.
      rewrite (proj1 (IH _)) by assumption. f_equal. rewrite (coeff_multiply_val OL). ring.
    - destruct (in_vectors_dec a b c x) as [Hx|Hx].
      + rewrite (proj1 (var_get_spec a b c x)) by assumption.
        apply IH. intro. apply H. constructor; assumption.
      + rewrite (proj2 (var_get_spec a b c x)) by assumption. reflexivity.
  Qed.

  Lemma lc_evaluate_val (a b c : list F) lc :
    (Forall (in_vectors a b c) (map fst lc) ->
       lc_evaluate lc a b c = Some (lc_val (of_vectors a b c) lc)) /\
    (~ Forall (in_vectors a b c) (map fst lc) -> lc_evaluate lc a b c = None).
  Proof.
    destruct (lc_evaluate_from_val a b c lc fzero) as [H1 H2]. split; intro H; unfold lc_evaluate.
    - rewrite H1 by assumption. f_equal. ring.
    - auto.
  Qed.

  Lemma lc_meaning (e : lexp F) (a b c : list F) :
    (Forall (in_vectors a b c) (lvars e) ->
       lc_evaluate (lbuild e) a b c = Some (lmean (of_vectors a b c) e)) /\
    (~ Forall (in_vectors a b c) (lvars e) -> lc_evaluate (lbuild e) a b c = None).
  Proof.
    rewrite <- lbuild_val.
    assert (E : Forall (in_vectors a b c) (lvars e) <-> Forall (in_vectors a b c) (map fst (lbuild e))).
    { rewrite !Forall_forall. split; intros H x Hx; apply H; apply lbuild_vars; exact Hx. }
    rewrite E. apply lc_evaluate_val.
  Qed.

  Lemma nbuild_val w (e : nexp F) : n_val w (nbuild e) = nmean (num_val w) e.
  Proof.
    induction e; cbn [nbuild nmean].
    - apply (n_from_val FL).
    - simpl. rewrite cbuild_val. reflexivity.
    - reflexivity.
    - rewrite (n_neg_val FL), IHe. reflexivity.
    - rewrite (n_scale_val FL), IHe. reflexivity.
    - rewrite (n_from_cn_val FL), IHe, cbuild_val. reflexivity.
  Qed.
  Lemma bbuild_val w (e : bexp F) : comb_val w (bbuild e) = bmean (num_val w) e.
  Proof.
    induction e; cbn [bbuild bmean]; rewrite ?(comb_zero_val), ?(comb_from_num_val FL),
      ?(comb_from_val FL), ?(comb_add_val FL), ?(comb_add_num_val FL), ?(comb_sub_num_val FL),
      ?(comb_add_n_val FL), ?(comb_add_cnum_val FL), ?(comb_add_cn_val FL), ?(comb_scale_val FL),
      ?nbuild_val, ?cbuild_val, ?IHe, ?IHe1, ?IHe2; reflexivity.
  Qed.

  (** values *)
  Definition hinted (val : AllocatedNum F -> F) (n : AllocatedNum F) := num_value n = Some (val n).
  Lemma nbuild_value val (e : nexp F) :
    Forall (hinted val) (nnums e) -> n_value (nbuild e) = Some (nmean val e).
  Proof.
    induction e; cbn [nbuild nmean nnums]; intro H.
    - inversion H; subst. simpl. rewrite H2. simpl. reflexivity.
    - inversion H; subst. simpl. rewrite H2. simpl. f_equal.
      rewrite coeff_value_val, (coeff_mul_f_val OL), cbuild_val. reflexivity.
    - reflexivity.
    - specialize (IHe H). destruct (nbuild e) as [d|d n]; simpl in *.
      + injection IHe as E. rewrite coeff_value_val in *. rewrite (coeff_neg_val OL), E. reflexivity.
      + destruct (num_value n); simpl in *; [|discriminate IHe].
        injection IHe as E. rewrite coeff_value_val, (coeff_mul_f_val OL) in *.
        rewrite (coeff_neg_val OL), <- E. f_equal. ring.
    - specialize (IHe H). destruct (nbuild e) as [d|d n]; simpl in *.
      + injection IHe as E. rewrite coeff_value_val in *. rewrite (coeff_mul_f_val OL), E. reflexivity.
      + destruct (num_value n); simpl in *; [|discriminate IHe].
        injection IHe as E. rewrite coeff_value_val, (coeff_mul_f_val OL) in *.
        rewrite (coeff_mul_f_val OL), <- E. f_equal. ring.
    - specialize (IHe H). destruct (nbuild e) as [d|d n]; simpl in *.
      + injection IHe as E. rewrite coeff_value_val in *. rewrite (coeff_mul_val OL), cbuild_val, E. reflexivity.
      + destruct (num_value n); simpl in *; [|discriminate IHe].
        injection IHe as E. rewrite coeff_value_val, (coeff_mul_f_val OL) in *.
        rewrite (coeff_mul_val OL), cbuild_val, <- E. f_equal. ring.
  Qed.
  Lemma bbuild_value val (e : bexp F) :
    Forall (hinted val) (bnums e) -> comb_value (bbuild e) = Some (bmean val e).
  Proof.
    induction e; cbn [bbuild bmean bnums]; intro H; rewrite ?Forall_app in H;
      repeat match goal with
      | H : Forall _ (_ :: _) |- _ => inversion H; subst; clear H
      | H : _ /\ _ |- _ => destruct H
      | H : hinted _ _ |- _ => red in H
      end; simpl;
      rewrite ?(nbuild_value val), ?IHe, ?IHe1, ?IHe2 by assumption; simpl;
      try match goal with H : num_value _ = _ |- _ => rewrite H end;
      rewrite ?coeff_value_val, ?cbuild_val; auto.
  Qed.

  Lemma comb_meaning (e : bexp F) one w :
    w one = fone ->
    lc_val w (comb_lc one (bbuild e)) = bmean (num_val w) e /\
    forall val, (forall n, In n (bnums e) -> num_value n = Some (val n)) ->
      comb_value (bbuild e) = Some (bmean val e).
  Proof.
    intro H1. split.
    - rewrite (comb_lc_val FL one w H1). apply bbuild_val.
    - intros val H. apply bbuild_value. apply Forall_forall. exact H.
  Qed.
  Lemma n_meaning (e : nexp F) one w :
    w one = fone ->
    lc_val w (n_lc one (nbuild e)) = nmean (num_val w) e /\
    forall val, (forall n, In n (nnums e) -> num_value n = Some (val n)) ->
      n_value (nbuild e) = Some (nmean val e).
  Proof.
    intro H1. split.
    - rewrite (n_lc_val FL one w H1). apply nbuild_val.
    - intros val H. apply nbuild_value. apply Forall_forall. exact H.
  Qed.
  Lemma n_is_constant_iff (n : Num F) : n_is_constant n = true <-> exists c, n = NConstant c.
  Proof. destruct n; simpl; split; intro H; eauto; try discriminate H. destruct H; discriminate. Qed.
  (** A combination built by the operators over constants carries its value. *)
  Lemma bbuild_wf (e : bexp F) : comb_wf (bbuild e).
  Proof.
    induction e; cbn [bbuild].
    - apply comb_zero_wf.
    - apply comb_from_num_wf.
    - apply (comb_from_wf FL).
    - apply (comb_add_wf FL); assumption.
    - apply comb_add_num_wf.
    - apply comb_sub_num_wf.
    - apply (comb_add_n_wf FL); assumption.
    - apply comb_add_cnum_wf.
    - apply (comb_add_cn_wf FL); assumption.
    - apply (comb_scale_wf FL); assumption.
  Qed.
End ExprP.

Section NumTop.
  Context {F : Field} {p : Z} {v : F -> Z} (FL : FieldLaws F p v).
  Let OL : OpsLaws F p v := fl_ops _ _ _ FL.
  Add Field Ff2 : (ffield OL).

  Lemma allocated_numbers (w : assignment F) (a b : AllocatedNum F) (value : res F) (x : F) :
    (value = Ok x -> complete w (num_alloc value) (fun o => num_ok w o /\ num_val w o = x)) /\
    sound w (num_inputize a) (fun o => num_val w o = num_val w a) /\
    (num_ok w a -> complete w (num_inputize a) (fun o => num_ok w o /\ num_val w o = num_val w a)) /\
    sound w (num_mul a b) (fun o => num_val w o = fmul (num_val w a) (num_val w b)) /\
    (num_ok w a -> num_ok w b -> complete w (num_mul a b) (fun o => num_ok w o)) /\
    sound w (num_alloc_and_square value)
      (fun '(o, sq) => num_val w sq = fmul (num_val w o) (num_val w o)) /\
    (value = Ok x -> complete w (num_alloc_and_square value)
       (fun '(o, sq) => num_ok w o /\ num_ok w sq /\ num_val w o = x)).
  Proof.
    repeat split.
    - apply num_alloc_complete.
    - apply (num_inputize_sound FL).
    - apply (num_inputize_complete FL).
    - apply (num_mul_sound FL (VA 0)).
    - apply (num_mul_complete FL (VA 0)).
    - apply (num_alloc_and_square_sound FL (VA 0)).
    - apply (num_alloc_and_square_complete FL (VA 0)).
  Qed.

  Lemma invert_gadget (w : assignment F) one (a : AllocatedNum F) : w one = fone ->
    sound w (num_invert one a)
      (fun o => fmul (num_val w o) (num_val w a) = fone /\ num_val w a <> fzero) /\
    (num_ok w a -> num_val w a <> fzero -> complete w (num_invert one a) (fun o => num_ok w o)).
  Proof.
    intro H1. split.
    - eapply sound_weaken; [apply (num_invert_sound FL one w H1)|]. intros o H. split; [exact H|].
      intro E. rewrite E in H. apply (fone_neq_zero OL). rewrite <- H. ring.
    - apply (num_invert_complete FL one w H1).
  Qed.

  Lemma sqrt_gadget (w : assignment F) (a : AllocatedNum F) :
    sound w (num_sqrt a) (fun o => fmul (num_val w o) (num_val w o) = num_val w a) /\
    (num_ok w a -> (exists r, fmul r r = num_val w a) ->
       complete w (num_sqrt a) (fun o => num_ok w o)).
  Proof. split; [apply (num_sqrt_sound FL (VA 0))|apply (num_sqrt_complete FL (VA 0))]. Qed.

  Lemma bbuild_ok (w : assignment F) d : Forall (num_ok w) (bnums d) -> comb_ok w (bbuild d).
  Proof.
    intro H. unfold comb_ok. rewrite (bbuild_val FL). apply (bbuild_value FL).
    exact H.
  Qed.

  Lemma comb_gadgets (w : assignment F) one (d e : bexp F) : w one = fone ->
    let c := bbuild d in let c' := bbuild e in
    let x := bmean (fun n => w (num_var n)) d in let y := bmean (fun n => w (num_var n)) e in
    sound w (comb_evaluate one c) (fun o => n_val w o = x) /\
    sound w (comb_mul one c c') (fun o => num_val w o = fmul x y) /\
    sound w (comb_square one c) (fun o => num_val w o = fmul x x) /\
    (Forall (num_ok w) (bnums d) -> Forall (num_ok w) (bnums e) ->
     complete w (comb_evaluate one c) (fun o => n_ok w o) /\
     complete w (comb_mul one c c') (fun o => num_ok w o) /\
     complete w (comb_square one c) (fun o => num_ok w o)).
  Proof.
    intros H1 c c' x y.
    assert (Ex : comb_val w c = x) by apply (bbuild_val FL).
    assert (Ey : comb_val w c' = y) by apply (bbuild_val FL).
    rewrite <- Ex, <- Ey. split; [|split; [|split]].
    - apply (comb_evaluate_sound FL one w H1). apply (bbuild_wf FL).
    - apply (comb_mul_sound FL one w H1).
    - apply (comb_square_sound FL one w H1).
    - intros Hd He. pose proof (bbuild_ok w d Hd). pose proof (bbuild_ok w e He).
      split; [|split].
      + apply (comb_evaluate_complete FL one w H1); assumption.
      + apply (comb_mul_complete FL one w H1); assumption.
      + apply (comb_square_complete FL one w H1); assumption.
  Qed.

  Lemma fifth_power_gadgets (w : assignment F) one (d : bexp F) (b : F) : w one = fone ->
    let c := bbuild d in let x := bmean (fun n => w (num_var n)) d in
    sound w (constrain_pow_five (Some b)) (fun '(base, r) => w r = pow5 (w base)) /\
    complete w (constrain_pow_five (Some b)) (fun '(base, r) => w base = b /\ w r = pow5 b) /\
    sound w (comb_rescue_alpha one c) (fun o => n_val w o = pow5 x) /\
    sound w (comb_rescue_invalpha one c) (fun o => pow5 (n_val w o) = x) /\
    (forall y z : F, pow5 y = pow5 z -> y = z) /\
    (Forall (num_ok w) (bnums d) ->
     complete w (comb_rescue_alpha one c) (fun o => n_ok w o) /\
     complete w (comb_rescue_invalpha one c) (fun o => n_ok w o)).
  Proof.
    intros H1 c x. assert (Ex : comb_val w c = x) by apply (bbuild_val FL). rewrite <- Ex.
    split; [|split; [|split; [|split; [|split]]]].
    - apply (constrain_pow_five_sound FL one w).
    - apply (constrain_pow_five_complete FL one w). reflexivity.
    - apply (comb_rescue_alpha_sound FL one w H1). apply (bbuild_wf FL).
    - eapply sound_weaken; [apply (comb_rescue_invalpha_sound FL one w H1); apply (bbuild_wf FL)|].
      intros o ->. apply (pow5_invalpha FL).
    - apply (pow5_inj FL).
    - intro Hd. pose proof (bbuild_ok w d Hd). split.
      + apply (comb_rescue_alpha_complete FL one w H1); assumption.
      + apply (comb_rescue_invalpha_complete FL one w H1); assumption.
  Qed.
End NumTop.
