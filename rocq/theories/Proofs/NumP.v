(** Soundness and completeness of the number gadgets. *)
From Coq Require Import String List Bool ZArith Lia Ring Field.
From Verif Require Import Model.FieldTrait Model.Circuits Model.Num Spec.FieldLaws Spec.CircuitSpec
  Spec.NumSpec Proofs.FieldGen Proofs.CircuitP Proofs.LcP.
Import ListNotations.

Section NumP.
  Context {F : Field} {p : Z} {v : F -> Z} (FL : FieldLaws F p v) (one : Var).
  Let OL : OpsLaws F p v := fl_ops _ _ _ FL.
  Add Field Ff : (ffield OL).
  Variable w : assignment F.
  Hypothesis w_one : w one = fone.

  Lemma n_neg_val n : n_val w (n_neg n) = fneg (n_val w n).
  Proof. destruct n; simpl; rewrite (coeff_neg_val OL); ring. Qed.
  Lemma n_from_val n : n_val w (n_from n) = num_val w n.
  Proof. simpl. ring. Qed.
  Lemma n_from_cn_val c n : n_val w (n_from_cn c n) = fmul (coeff_val c) (n_val w n).
  Proof. destruct n; simpl; rewrite (coeff_mul_val OL); ring. Qed.
  Lemma n_scale_val n x : n_val w (n_scale n x) = fmul (n_val w n) x.
  Proof. destruct n; simpl; rewrite (coeff_mul_f_val OL); ring. Qed.
  Lemma n_lc_val n : lc_val w (n_lc one n) = n_val w n.
  Proof. destruct n; simpl; unfold lc_zero; rewrite ?w_one; unfold num_val; ring. Qed.
  Lemma sum_val_app ts ts' : sum_val w (ts ++ ts') = fadd (sum_val w ts) (sum_val w ts').
  Proof. induction ts as [|t ts IH]; simpl; [|rewrite IH]; ring. Qed.
  Lemma comb_lc_val c : lc_val w (comb_lc one c) = comb_val w c.
  Proof.
    unfold comb_lc, comb_val.
    enough (E : forall acc, lc_val w (fold_left (fun acc t => lc_add_lc acc (n_lc one t))
                                       (comb_terms c) acc)
                = fadd (lc_val w acc) (sum_val w (comb_terms c))).
    { rewrite E. simpl. ring. }
    induction (comb_terms c) as [|t ts IH]; intro acc; simpl; [ring|].
    rewrite IH, (lc_val_add_lc OL), n_lc_val. ring.
  Qed.
  Lemma comb_from_num_val n : comb_val w (comb_from_num n) = num_val w n.
  Proof. unfold comb_val. simpl. ring. Qed.
  Lemma comb_from_val n : comb_val w (comb_from n) = n_val w n.
  Proof. unfold comb_val. simpl. ring. Qed.
  Lemma comb_add_val a b : comb_val w (comb_add a b) = fadd (comb_val w a) (comb_val w b).
  Proof. unfold comb_val. simpl. apply sum_val_app. Qed.
  Lemma comb_add_num_val a b : comb_val w (comb_add_num a b) = fadd (comb_val w a) (num_val w b).
  Proof. unfold comb_val. simpl. rewrite sum_val_app. simpl. ring. Qed.
  Lemma comb_sub_num_val a b : comb_val w (comb_sub_num a b) = fsub (comb_val w a) (num_val w b).
  Proof. unfold comb_val. simpl. rewrite sum_val_app. simpl. ring. Qed.
  Lemma comb_add_n_val a b : comb_val w (comb_add_n a b) = fadd (comb_val w a) (n_val w b).
  Proof. unfold comb_val. simpl. rewrite sum_val_app. simpl. ring. Qed.
  Lemma comb_add_cnum_val a c b :
    comb_val w (comb_add_cnum a c b) = fadd (comb_val w a) (fmul (coeff_val c) (num_val w b)).
  Proof. unfold comb_val. simpl. rewrite sum_val_app. simpl. ring. Qed.
  Lemma comb_add_cn_val a c b :
    comb_val w (comb_add_cn a c b) = fadd (comb_val w a) (fmul (coeff_val c) (n_val w b)).
  Proof. unfold comb_val. simpl. rewrite sum_val_app. simpl. rewrite n_from_cn_val. ring. Qed.
  Lemma comb_scale_val a x : comb_val w (comb_scale a x) = fmul (comb_val w a) x.
  Proof.
    unfold comb_val. simpl. induction (comb_terms a) as [|t ts IH]; simpl; [ring|].
    rewrite IH, n_scale_val. ring.
  Qed.
  Lemma comb_zero_val : comb_val w (@comb_zero F) = fzero.
  Proof. reflexivity. Qed.

  (** value hints *)
  Lemma n_from_ok n : num_ok w n -> n_ok w (n_from n).
  Proof. unfold num_ok, n_ok. simpl. intros ->. simpl. f_equal. ring. Qed.
  Lemma n_constant_ok x : n_ok w (n_constant x).
  Proof. reflexivity. Qed.
  Lemma omap2_ok {A B C} (f : A -> B -> C) x y a b :
    x = Some a -> y = Some b -> omap2 f x y = Some (f a b).
  Proof. intros -> ->. reflexivity. Qed.
  Lemma comb_from_num_ok n : num_ok w n -> comb_ok w (comb_from_num n).
  Proof. unfold num_ok, comb_ok. rewrite comb_from_num_val. simpl. auto. Qed.
  Lemma comb_from_ok n : n_ok w n -> comb_ok w (comb_from n).
  Proof. unfold n_ok, comb_ok. rewrite comb_from_val. simpl. auto. Qed.
  Lemma comb_add_ok a b : comb_ok w a -> comb_ok w b -> comb_ok w (comb_add a b).
  Proof. unfold comb_ok. rewrite comb_add_val. apply (omap2_ok fadd). Qed.
  Lemma comb_add_num_ok a b : comb_ok w a -> num_ok w b -> comb_ok w (comb_add_num a b).
  Proof. unfold comb_ok. rewrite comb_add_num_val. apply (omap2_ok fadd). Qed.
  Lemma comb_sub_num_ok a b : comb_ok w a -> num_ok w b -> comb_ok w (comb_sub_num a b).
  Proof. unfold comb_ok. rewrite comb_sub_num_val. apply (omap2_ok fsub). Qed.
  Lemma comb_add_n_ok a b : comb_ok w a -> n_ok w b -> comb_ok w (comb_add_n a b).
  Proof. unfold comb_ok. rewrite comb_add_n_val. apply (omap2_ok fadd). Qed.
  Lemma comb_add_cnum_ok a c b : comb_ok w a -> num_ok w b -> comb_ok w (comb_add_cnum a c b).
  Proof.
    unfold comb_ok. rewrite comb_add_cnum_val, <- coeff_value_val.
    apply (omap2_ok (fun x y => fadd x (fmul (coeff_value c) y))).
  Qed.
  Lemma comb_add_cn_ok a c b : comb_ok w a -> n_ok w b -> comb_ok w (comb_add_cn a c b).
  Proof.
    unfold comb_ok. rewrite comb_add_cn_val, <- coeff_value_val.
    apply (omap2_ok (fun x y => fadd x (fmul (coeff_value c) y))).
  Qed.
  Lemma comb_scale_ok a x : comb_ok w a -> comb_ok w (comb_scale a x).
  Proof. unfold comb_ok. rewrite comb_scale_val. simpl. intros ->. reflexivity. Qed.
  Lemma comb_zero_ok : comb_ok w comb_zero.
  Proof. reflexivity. Qed.
  Lemma n_neg_ok n : n_ok w n -> n_ok w (n_neg n).
  Proof.
    unfold n_ok. rewrite n_neg_val. destruct n as [c|c a]; simpl.
    - intros _. rewrite coeff_value_val, (coeff_neg_val OL). reflexivity.
    - destruct (num_value a); simpl; [|discriminate]. intros [= H]. f_equal.
      rewrite coeff_value_val, (coeff_mul_f_val OL), (coeff_neg_val OL).
      rewrite coeff_value_val, (coeff_mul_f_val OL) in H. rewrite <- H. ring.
  Qed.
  Lemma n_scale_ok n x : n_ok w n -> n_ok w (n_scale n x).
  Proof.
    unfold n_ok. rewrite n_scale_val. destruct n as [c|c a]; simpl.
    - intros _. rewrite coeff_value_val, (coeff_mul_f_val OL). reflexivity.
    - destruct (num_value a); simpl; [|discriminate]. intros [= H]. f_equal.
      rewrite coeff_value_val, !(coeff_mul_f_val OL).
      rewrite coeff_value_val, (coeff_mul_f_val OL) in H. rewrite <- H. ring.
  Qed.

  (** closedness under [comb_wf] *)
  Lemma any_allocated_false (c : Combination F) : any_allocated c = false <-> Forall constant_term (comb_terms c).
  Proof.
    unfold any_allocated. induction (comb_terms c) as [|t ts IH]; simpl.
    - split; auto.
    - rewrite Bool.orb_false_iff, IH. split.
      + intros [H1 H2]. constructor; auto. destruct t; simpl in *; [exact I|discriminate].
      + intros H. inversion H; subst. split; auto. destruct t; simpl in *; [reflexivity|contradiction].
  Qed.

  (** gadgets *)
  Lemma pow5_zpow (x : F) : pow5 x = zpow x 5.
  Proof. unfold pow5. change (zpow x 5) with (zpow x (Z.succ (Z.succ (Z.succ (Z.succ (Z.succ 0)))))).
    rewrite !(zpow_succ OL) by lia. rewrite (zpow_0). ring. Qed.

  Lemma constrain_pow_five_sound x :
    sound w (constrain_pow_five x) (fun '(b, r) => w r = pow5 (w b)).
  Proof.
    unfold constrain_pow_five. repeat sstep. lcv OL. eqz OL. unfold pow5. wires w. ring.
  Qed.
  Lemma constrain_pow_five_complete x y :
    x = Some y ->
    complete w (constrain_pow_five x) (fun '(b, r) => w b = y /\ w r = pow5 y).
  Proof.
    intros ->. unfold constrain_pow_five. simpl option_map.
    repeat (cstep; rewrite ?(fsquare_mul OL); try reflexivity; lcv OL; try (wires w; ring)).
    simpl in *. rewrite ?(fsquare_mul OL) in *. unfold pow5. split; [assumption|].
    wires w. ring.
  Qed.

  Lemma num_one_val : num_val w (num_one one) = fone.
  Proof. exact w_one. Qed.
  Lemma num_one_ok : num_ok w (num_one one).
  Proof. unfold num_ok. rewrite num_one_val. reflexivity. Qed.

  Lemma num_alloc_sound val : sound w (num_alloc val) (fun n => num_value n = ok val).
  Proof. unfold num_alloc. repeat sstep. reflexivity. Qed.
  Lemma num_alloc_complete val x : val = Ok x ->
    complete w (num_alloc val) (fun n => num_ok w n /\ num_val w n = x).
  Proof.
    intros ->. unfold num_alloc. cstep; [reflexivity|]. cstep.
    unfold num_ok, num_val. simpl. subst. auto.
  Qed.
  Lemma num_alloc_input_complete val x : val = Ok x ->
    complete w (num_alloc_input val) (fun n => num_ok w n /\ num_val w n = x).
  Proof.
    intros ->. unfold num_alloc_input. cstep; [reflexivity|]. cstep.
    unfold num_ok, num_val. simpl. subst. auto.
  Qed.

  Lemma num_inputize_sound a :
    sound w (num_inputize a) (fun n => num_val w n = num_val w a).
  Proof. unfold num_inputize. repeat sstep. lcv OL. eqz OL. symmetry. assumption. Qed.
  Lemma num_inputize_complete a : num_ok w a ->
    complete w (num_inputize a) (fun n => num_ok w n /\ num_val w n = num_val w a).
  Proof.
    unfold num_ok, num_val. intro Ha. unfold num_inputize. cstep; [rewrite Ha; reflexivity|].
    cstep; [lcv OL; rewrite H; ring|]. cstep. simpl. rewrite H. auto.
  Qed.

  Lemma num_mul_sound a b :
    sound w (num_mul a b) (fun o => num_val w o = fmul (num_val w a) (num_val w b)).
  Proof.
    unfold num_mul, num_val. repeat sstep. simpl. lcv OL. eqz OL. wires w. reflexivity.
  Qed.
  Lemma num_mul_complete a b : num_ok w a -> num_ok w b ->
    complete w (num_mul a b) (fun o => num_ok w o).
  Proof.
    unfold num_ok, num_val. intros Ha Hb. unfold num_mul. rewrite Ha, Hb. simpl.
    repeat (cstep; try reflexivity; lcv OL; try (wires w; ring)).
    simpl. congruence.
  Qed.

  Lemma num_alloc_and_square_sound val :
    sound w (num_alloc_and_square val) (fun '(a, b) => num_val w b = fmul (num_val w a) (num_val w a)).
  Proof.
    unfold num_alloc_and_square, num_val. repeat sstep. simpl. lcv OL. eqz OL. wires w. reflexivity.
  Qed.
  Lemma num_alloc_and_square_complete val x : val = Ok x ->
    complete w (num_alloc_and_square val)
      (fun '(a, b) => num_ok w a /\ num_ok w b /\ num_val w a = x).
  Proof.
    intros ->. unfold num_alloc_and_square, num_ok, num_val. simpl.
    repeat (cstep; rewrite ?(fsquare_mul OL); try reflexivity; lcv OL; try (wires w; ring)).
    simpl. repeat split; congruence.
  Qed.

  Lemma num_invert_sound a :
    sound w (num_invert one a) (fun o => fmul (num_val w o) (num_val w a) = fone).
  Proof.
    unfold num_invert, num_val. sstep. unfold num_alloc.
    repeat sstep. cbn [num_var num_value] in *. lcv OL. eqz OL. rewrite w_one in *. wires w. assumption.
  Qed.
  Lemma num_invert_complete a : num_ok w a -> num_val w a <> fzero ->
    complete w (num_invert one a) (fun o => num_ok w o).
  Proof.
    unfold num_ok, num_val. intros Ha Hz. unfold num_invert. rewrite Ha. simpl.
    destruct (fl_invert _ _ _ FL (w (num_var a))) as (i & Ei & Hi).
    { intro E. apply Hz. apply (v_eq_zero OL). exact E. }
    rewrite Ei. simpl.
    assert (Hm : fmul i (w (num_var a)) = fone).
    { apply (ol_inj _ _ _ OL). rewrite (ol_mul _ _ _ OL), (ol_one _ _ _ OL), Z.mul_comm. exact Hi. }
    cstep. unfold num_alloc.
    repeat (cstep; try reflexivity; try exact Hm; lcv OL; cbn [num_var num_value ok]; try (wires w; ring)).
    simpl. congruence.
  Qed.

  Lemma num_sqrt_sound a :
    sound w (num_sqrt a) (fun o => fmul (num_val w o) (num_val w o) = num_val w a).
  Proof.
    unfold num_sqrt, num_val. sstep. unfold num_alloc.
    repeat sstep. cbn [num_var num_value] in *. lcv OL. eqz OL. wires w. assumption.
  Qed.
  Lemma num_sqrt_complete a : num_ok w a -> (exists r, fmul r r = num_val w a) ->
    complete w (num_sqrt a) (fun o => num_ok w o).
  Proof.
    unfold num_ok, num_val. intros Ha [r Hr]. unfold num_sqrt. rewrite Ha. simpl.
    destruct (f_sqrt (w (num_var a))) as [s|] eqn:Es.
    2:{ exfalso. apply (fl_sqrt_none _ _ _ FL _ Es (v r)).
        rewrite <- (ol_mul _ _ _ OL), Hr. reflexivity. }
    apply (fl_sqrt_some _ _ _ FL) in Es.
    assert (Hm : fmul s s = w (num_var a)).
    { apply (ol_inj _ _ _ OL). rewrite (ol_mul _ _ _ OL). exact Es. }
    simpl. cstep. unfold num_alloc.
    repeat (cstep; try reflexivity; try exact Hm; lcv OL; cbn [num_var num_value ok]; try (wires w; ring)).
    simpl. congruence.
  Qed.

  Lemma sound_lc_sub_v lc x : lc_val w (lc_sub_v lc x) = fzero -> w x = lc_val w lc.
  Proof. intro H. lcv OL. eqz OL. symmetry. assumption. Qed.

  Lemma comb_evaluate_sound c : comb_wf c ->
    sound w (comb_evaluate one c) (fun n => n_val w n = comb_val w c).
  Proof.
    intro Hc. unfold comb_evaluate. destruct (any_allocated c) eqn:E.
    - sstep. unfold num_alloc. repeat sstep. rewrite n_from_val.
      unfold num_lc in *. lcv OL. rewrite comb_lc_val in *. eqz OL. assumption.
    - apply any_allocated_false in E. rewrite (Hc E w). repeat sstep. simpl. simpl in H. congruence.
  Qed.
  Lemma comb_evaluate_complete c : comb_ok w c ->
    complete w (comb_evaluate one c) (fun n => n_ok w n).
  Proof.
    intro Hc. unfold comb_evaluate. rewrite Hc. simpl. destruct (any_allocated c).
    - cstep. unfold num_alloc. cstep. cstep; [reflexivity|]. cstep.
      cstep; [unfold num_lc; lcv OL; rewrite comb_lc_val; simpl; rewrite H; ring|].
      cstep. apply n_from_ok. unfold num_ok, num_val. simpl. rewrite H. reflexivity.
    - cstep; [rewrite Hc; reflexivity|]. cstep. reflexivity.
  Qed.

  Lemma comb_mul_sound a b :
    sound w (comb_mul one a b) (fun o => num_val w o = fmul (comb_val w a) (comb_val w b)).
  Proof.
    unfold comb_mul. repeat sstep. lcv OL. rewrite !comb_lc_val in *. eqz OL.
    unfold num_val. simpl. wires w. reflexivity.
  Qed.
  Lemma comb_mul_complete a b : comb_ok w a -> comb_ok w b ->
    complete w (comb_mul one a b) (fun o => num_ok w o).
  Proof.
    intros Ha Hb. unfold comb_mul. rewrite Ha, Hb. simpl.
    repeat (cstep; try reflexivity; lcv OL; rewrite ?comb_lc_val; try (wires w; ring)).
    unfold num_ok, num_val. simpl. congruence.
  Qed.

  Lemma comb_square_sound a :
    sound w (comb_square one a) (fun o => num_val w o = fmul (comb_val w a) (comb_val w a)).
  Proof.
    unfold comb_square. repeat sstep. lcv OL. rewrite !comb_lc_val in *. eqz OL.
    unfold num_val. simpl. wires w. reflexivity.
  Qed.
  Lemma comb_square_complete a : comb_ok w a ->
    complete w (comb_square one a) (fun o => num_ok w o).
  Proof.
    intros Ha. unfold comb_square. rewrite Ha. simpl.
    repeat (cstep; rewrite ?(fsquare_mul OL); try reflexivity; lcv OL; rewrite ?comb_lc_val; try (wires w; ring)).
    unfold num_ok, num_val. simpl. congruence.
  Qed.
End NumP.

Section Rescue.
  Context {F : Field} {p : Z} {v : F -> Z} (FL : FieldLaws F p v) (one : Var).
  Let OL : OpsLaws F p v := fl_ops _ _ _ FL.
  Add Field Ff2 : (ffield OL).

  Lemma n_const_ok (n : Num F) w : constant_term n -> n_ok w n.
  Proof. destruct n; simpl; [|contradiction]. intros _. unfold n_ok. simpl. rewrite coeff_value_val. reflexivity. Qed.
  Lemma comb_from_num_wf (n : AllocatedNum F) : comb_wf (comb_from_num n).
  Proof. intros H w. inversion H; subst. contradiction. Qed.
  Lemma comb_from_wf (n : Num F) : comb_wf (comb_from n).
  Proof. intros H w. apply (comb_from_ok FL). apply n_const_ok. inversion H; auto. Qed.
  Lemma comb_zero_wf : comb_wf (@comb_zero F).
  Proof. intros H w. reflexivity. Qed.
  Lemma comb_add_wf (a b : Combination F) : comb_wf a -> comb_wf b -> comb_wf (comb_add a b).
  Proof.
    intros Ha Hb H w. apply Forall_app in H. apply (comb_add_ok FL); [apply Ha|apply Hb]; apply H.
  Qed.
  Lemma comb_add_num_wf (a : Combination F) b : comb_wf (comb_add_num a b).
  Proof. intros H w. apply Forall_app in H. destruct H as [_ H]. inversion H; contradiction. Qed.
  Lemma comb_sub_num_wf (a : Combination F) b : comb_wf (comb_sub_num a b).
  Proof. intros H w. apply Forall_app in H. destruct H as [_ H]. inversion H; contradiction. Qed.
  Lemma comb_add_cnum_wf (a : Combination F) c b : comb_wf (comb_add_cnum a c b).
  Proof. intros H w. apply Forall_app in H. destruct H as [_ H]. inversion H; contradiction. Qed.
  Lemma comb_add_n_wf (a : Combination F) b : comb_wf a -> comb_wf (comb_add_n a b).
  Proof.
    intros Ha H w. apply Forall_app in H. destruct H as [H1 H2].
    apply (comb_add_n_ok FL); [apply Ha, H1|]. apply n_const_ok. inversion H2; auto.
  Qed.
  Lemma comb_add_cn_wf (a : Combination F) c b : comb_wf a -> comb_wf (comb_add_cn a c b).
  Proof.
    intros Ha H w. apply Forall_app in H. destruct H as [H1 H2].
    apply (comb_add_cn_ok FL); [apply Ha, H1|]. apply n_const_ok. inversion H2; subst.
    destruct b; simpl in *; auto.
  Qed.
  Lemma comb_scale_wf (a : Combination F) x : comb_wf a -> comb_wf (comb_scale a x).
  Proof.
    intros Ha H w. apply (comb_scale_ok FL). apply Ha. simpl in H. rewrite Forall_map in H.
    eapply Forall_impl; [|exact H]. intros [] HH; exact HH.
  Qed.

  Lemma alpha_wf : limbs_wf (L4 (f_RESCUE_ALPHA F) 0 0 0).
  Proof. rewrite (fl_alpha _ _ _ FL). unfold limbs_wf. simpl. lia. Qed.
  Lemma pow_alpha (x : F) : pow F x (L4 (f_RESCUE_ALPHA F) 0 0 0) = pow5 x.
  Proof.
    rewrite (pow_zpow OL) by exact alpha_wf. rewrite (fl_alpha _ _ _ FL), (pow5_zpow FL). reflexivity.
  Qed.
  Lemma invalpha_pos : 0 < limbs_val (f_RESCUE_INVALPHA F).
  Proof.
    destruct (fl_invalpha_wf _ _ _ FL) as (H0 & H1 & H2 & H3).
    pose proof (fl_invalpha _ _ _ FL) as H. unfold limbs_val in *.
    assert (limbs_val (f_RESCUE_INVALPHA F) <> 0); [|unfold limbs_val in *; lia].
    unfold limbs_val. intro E. rewrite E in H. simpl in H. rewrite Z.mod_0_l in H; [discriminate H|].
    pose proof (ol_odd _ _ _ OL). lia.
  Qed.
  Lemma zpow_5_inv (x : F) : zpow x (5 * limbs_val (f_RESCUE_INVALPHA F)) = x.
  Proof.
    pose proof invalpha_pos as Hp. pose proof (fl_invalpha _ _ _ FL) as H.
    pose proof (ol_odd _ _ _ OL) as Ho.
    set (e := limbs_val (f_RESCUE_INVALPHA F)) in *. clearbody e.
    destruct (feq_dec OL x fzero) as [->|Hx].
    - apply (zpow_zero OL). lia.
    - pose proof (Z.div_mod (5 * e) (p - 1) ltac:(lia)) as E. rewrite H in E.
      set (q := (5 * e) / (p - 1)) in *.
      assert (Hq : 0 <= q) by (apply Z.div_pos; lia). clearbody q.
      rewrite E, (zpow_add OL), <- (zpow_mul OL), (fermat OL), (zpow_one OL), zpow_1 by (try lia; auto).
      ring.
  Qed.
  Lemma pow5_invalpha (x : F) : pow5 (pow F x (f_RESCUE_INVALPHA F)) = x.
  Proof.
    pose proof invalpha_pos as Hp.
    rewrite (pow_zpow OL) by apply (fl_invalpha_wf _ _ _ FL).
    rewrite (pow5_zpow FL), (zpow_mul OL), Z.mul_comm by lia. apply zpow_5_inv.
  Qed.
  Lemma invalpha_pow5 (x : F) : pow F (pow5 x) (f_RESCUE_INVALPHA F) = x.
  Proof.
    pose proof invalpha_pos as Hp.
    rewrite (pow_zpow OL) by apply (fl_invalpha_wf _ _ _ FL).
    rewrite (pow5_zpow FL), (zpow_mul OL) by lia. apply zpow_5_inv.
  Qed.
  Lemma pow5_inj (x y : F) : pow5 x = pow5 y -> x = y.
  Proof. intro H. rewrite <- (invalpha_pow5 x), <- (invalpha_pow5 y), H. reflexivity. Qed.

  Variable w : assignment F.
  Hypothesis w_one : w one = fone.

  Lemma num_rescue_alpha_sound c :
    sound w (num_rescue_alpha one c) (fun o => num_val w o = pow5 (comb_val w c)).
  Proof.
    unfold num_rescue_alpha. sstep. scall (constrain_pow_five_sound FL one w).
    intros [b r] H1. repeat sstep. lcv OL. rewrite (comb_lc_val FL one w w_one) in *. eqz OL.
    unfold num_val. simpl. rewrite H1. congruence.
  Qed.
  Lemma num_rescue_alpha_complete c : comb_ok w c ->
    complete w (num_rescue_alpha one c) (fun o => num_ok w o).
  Proof.
    intro Hc. unfold num_rescue_alpha. cstep; [rewrite (fl_alpha _ _ _ FL); reflexivity|].
    ccall (constrain_pow_five_complete FL one w _ _ Hc). intros [b r] [H1 H2].
    cstep; [lcv OL; rewrite (comb_lc_val FL one w w_one), H1; ring|].
    cstep. unfold num_ok, num_val. simpl. rewrite Hc. simpl. rewrite pow_alpha, H2. reflexivity.
  Qed.

  Lemma num_rescue_invalpha_sound c :
    sound w (num_rescue_invalpha one c)
      (fun o => num_val w o = pow F (comb_val w c) (f_RESCUE_INVALPHA F)).
  Proof.
    unfold num_rescue_invalpha. sstep. scall (constrain_pow_five_sound FL one w).
    intros [r b] H1. repeat sstep. lcv OL. rewrite (comb_lc_val FL one w w_one) in *. eqz OL.
    unfold num_val. simpl. rewrite H0, H1, invalpha_pow5. reflexivity.
  Qed.
  Lemma num_rescue_invalpha_complete c : comb_ok w c ->
    complete w (num_rescue_invalpha one c) (fun o => num_ok w o).
  Proof.
    intro Hc. unfold num_rescue_invalpha. cstep; [rewrite (fl_alpha _ _ _ FL); reflexivity|].
    eapply complete_bind.
    { apply complete_namespace. eapply (constrain_pow_five_complete FL one w).
      rewrite Hc. reflexivity. }
    intros [r b] [H1 H2]. rewrite pow5_invalpha in H2.
    cstep; [lcv OL; rewrite (comb_lc_val FL one w w_one), H2; ring|].
    cstep. unfold num_ok, num_val. simpl. rewrite Hc. simpl. rewrite H1. reflexivity.
  Qed.

  Lemma comb_rescue_alpha_sound c : comb_wf c ->
    sound w (comb_rescue_alpha one c) (fun o => n_val w o = pow5 (comb_val w c)).
  Proof.
    intro Hc. unfold comb_rescue_alpha. destruct (any_allocated c) eqn:E.
    - scall num_rescue_alpha_sound. intros n Hn. sstep. rewrite (n_from_val FL). exact Hn.
    - apply any_allocated_false in E. rewrite (Hc E w). sstep. sstep. simpl in *.
      rewrite pow_alpha. congruence.
  Qed.
  Lemma comb_rescue_alpha_complete c : comb_ok w c ->
    complete w (comb_rescue_alpha one c) (fun o => n_ok w o).
  Proof.
    intro Hc. unfold comb_rescue_alpha. destruct (any_allocated c) eqn:E.
    - ccall num_rescue_alpha_complete; [exact Hc|]. intros n Hn. cstep. apply (n_from_ok FL). exact Hn.
    - cstep; [rewrite Hc; unfold ok_or_missing; reflexivity|]. cstep. apply n_constant_ok.
  Qed.
  Lemma comb_rescue_invalpha_sound c : comb_wf c ->
    sound w (comb_rescue_invalpha one c)
      (fun o => n_val w o = pow F (comb_val w c) (f_RESCUE_INVALPHA F)).
  Proof.
    intro Hc. unfold comb_rescue_invalpha. destruct (any_allocated c) eqn:E.
    - scall num_rescue_invalpha_sound. intros n Hn. sstep. rewrite (n_from_val FL). exact Hn.
    - apply any_allocated_false in E. rewrite (Hc E w). sstep. sstep. simpl in *. congruence.
  Qed.
  Lemma comb_rescue_invalpha_complete c : comb_ok w c ->
    complete w (comb_rescue_invalpha one c) (fun o => n_ok w o).
  Proof.
    intro Hc. unfold comb_rescue_invalpha. destruct (any_allocated c) eqn:E.
    - ccall num_rescue_invalpha_complete; [exact Hc|]. intros n Hn. cstep. apply (n_from_ok FL). exact Hn.
    - cstep; [rewrite Hc; unfold ok_or_missing; reflexivity|]. cstep. apply n_constant_ok.
  Qed.
End Rescue.
