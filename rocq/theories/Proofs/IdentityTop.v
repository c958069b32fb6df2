(** The identity for circuits on the two curves. *)
From Coq Require Import ZArith String List Bool Arith Lia Ring Field.
From Verif Require Import Model.FieldTrait Model.FieldInst Model.Circuits Model.Synthesis Model.Dev Model.Curve Model.Threads Model.Util
  Model.Params Model.Opening Model.Proofs Spec.FieldSpec Spec.FieldLaws Spec.CircuitSpec Spec.CurveSpec Spec.CurveLaws Spec.UtilSpec Spec.SystemSpec
  Spec.ProofSpec
  Proofs.FieldGen Proofs.ZtoF Proofs.SumP Proofs.PolyMulP Proofs.FpFq Proofs.CurveInst Proofs.SystemP Proofs.ParamsP Proofs.IdentityP Proofs.DeferredP.
Import ListNotations.
Open Scope nat_scope.
Open Scope list_scope.

Section Top.
  Context {C : Curve} {q vb r vs} (CL : CurveLaws C q vb r vs).
  Let SL := cl_scalar _ _ _ _ _ CL.
  Let SO := fl_ops _ _ _ SL.
  Add Field Fs : (ffield SO).
  Variable (M : Machine) (P : Params C) (circuit : Var -> CS (Scalar C) unit) (s t : layout (Scalar C)).
  Hypothesis (HM : machine_ok M) (HT : laid_out true circuit s) (HF : laid_out false circuit t) (HS : same_system s t)
    (HN : l_gates s <= p_n P) (HB : (Z.of_nat (7 * p_n P + 1) <= 2 ^ 31)%Z).

  Lemma constant_top y yi : fmul y yi = fone -> exists c, prover_constant M P circuit s y c /\
    c = fadd (sum_q (fun i => fmul (fsub (fmul (wire (l_a s) i) (wire (l_b s) i)) (wire (l_c s) i)) (fadd (fpow y i) (fpow yi i))) (l_gates s))
             (fmul (fpow y (p_n P)) (sum_q (fun q => fmul (fpow y q) (lc_val (wires (l_a s) (l_b s) (l_c s)) (lc_number (l_lcs s) q))) (length (l_lcs s)))).
  Proof.
    intro Hy. destruct (prover_polys CL M P circuit s t y yi HM HT HF HS HN HB Hy) as (u & w & z & rp & Hu & Hw & Hz & E1 & E2 & L & E3 & E4).
    eexists. split; [|reflexivity]. exists yi. eexists _, rp, _. split; [exact Hy|]. split; [exact E1|]. split; [exact E2|]. split; [exact E3|].
    rewrite (map_nth_error _ _ _ (d := 4 * p_n P)).
    - f_equal. exact E4.
    - rewrite (nth_error_nth' _ 0) by (rewrite seq_length; lia). rewrite seq_nth by lia. reflexivity.
  Qed.
  Lemma constant_fun y c : prover_constant M P circuit s y c -> exists yi, fmul y yi = fone /\ c = constant_value (p_n P) s y yi.
  Proof.
    intros (yi & sx & rp & tx & Hy & E1 & E2 & E3 & E4). exists yi. split; [exact Hy|].
    destruct (constant_top y yi Hy) as (c' & (yi' & sx' & rp' & tx' & Hy' & E1' & E2' & E3' & E4') & ->).
    assert (yi' = yi) as ->.
    { pose proof (finvert_eq SL _ _ Hy). pose proof (finvert_eq SL _ _ Hy'). congruence. }
    assert (sx' = sx) as -> by congruence. assert (rp' = rp) as -> by congruence. assert (tx' = tx) as -> by congruence.
    unfold constant_value, gate_error. congruence.
  Qed.
  Lemma identity_few ys : NoDup ys -> 2 * p_n P + length (l_lcs s) < length ys ->
    (forall y, In y ys -> prover_constant M P circuit s y (fmul (fpow y (p_n P)) (k_value (l_inputs s) (l_values s) (length (l_lcs s)) y))) -> satisfied s.
  Proof.
    intros HD HL H. destruct (laid_out_ok _ _ _ HT) as (OK & _ & _).
    apply (constant_satisfied SO (p_n P) s ys OK HN HD HL). intros y Hy. destruct (constant_fun _ _ (H y Hy)) as (yi & Hi & E).
    exists yi. split; [exact Hi|]. symmetry. exact E.
  Qed.
  Lemma identity_iff : (Z.of_nat (length (l_lcs s)) < 2 ^ 64)%Z ->
    (satisfied s <-> forall y, y <> fzero -> prover_constant M P circuit s y (fmul (fpow y (p_n P)) (k_value (l_inputs s) (l_values s) (length (l_lcs s)) y))).
  Proof.
    intro HQ. split.
    - intros H y Hy. destruct (finvert_some SL y Hy) as (yi & _ & Hi). destruct (constant_top y yi Hi) as (c & Hc & E).
      rewrite <- (satisfied_constant SO (p_n P) s y yi H). unfold constant_value, gate_error. rewrite <- E. exact Hc.
    - intro H. set (m := S (2 * p_n P + length (l_lcs s))).
      assert (Hm : (Z.of_nat m < 2 ^ 66)%Z) by (unfold m; lia).
      assert (Hr : (2 ^ 66 < r)%Z). { pose proof (fl_size _ _ _ SL) as [X _]. eapply Z.lt_trans; [|exact X]. reflexivity. }
      apply (identity_few (map (fun i => fz (Z.of_nat i)) (seq 1 m))).
      + apply (NoDup_map_inv vs). rewrite map_map. clear H.
        assert (E : map (fun x => vs (fz (Z.of_nat x))) (seq 1 m) = map Z.of_nat (seq 1 m)).
        { apply map_ext_in. intros i Hi. apply in_seq in Hi. rewrite (v_fz SO), Z.mod_small by lia. reflexivity. }
        rewrite E. apply FinFun.Injective_map_NoDup; [|apply seq_NoDup]. intros a b. apply Nat2Z.inj.
      + rewrite map_length, seq_length. unfold m. lia.
      + intros y Hy. apply H. apply in_map_iff in Hy. destruct Hy as (i & <- & Hi). apply in_seq in Hi. intro E.
        apply (f_equal vs) in E. rewrite (v_fz SO), (ol_zero _ _ _ SO), Z.mod_small in E by lia. lia.
  Qed.

  (** the deferred check of honest openings *)
  Lemma deferred_top k y c (D : Deferred (Scalar C)) rp sx tx yi x xi : 2 <= k -> 2 ^ k = 4 * p_n P -> length (p_generators P) = 4 * p_n P ->
    fmul x xi = fone -> fmul y yi = fone ->
    let rx := rx_poly (p_n P) s in
    compute_sx P circuit y = Done (Ok sx) -> prime_poly (p_n P) rx sx y yi = Some rp -> multiply_polynomials M rx rp = Some tx ->
    nth_error tx (4 * p_n P) = Some c ->
    d_x D = x -> d_y_cur D = y ->
    compute_opening P (skipn (4 * p_n P + 1) tx) x false = Some (d_tx_positive_opening D) ->
    compute_opening P (firstn (4 * p_n P) tx) x false = Some (d_tx_negative_opening D) ->
    compute_opening P sx x false = Some (d_sx_cur_opening D) ->
    compute_opening P rx x true = Some (d_rx_opening D) -> compute_opening P rx (fmul x y) true = Some (d_rxy_opening D) ->
    exists lhs rhs, deferred_compute D k = Some (lhs, rhs) /\ (lhs = rhs <-> c = fmul (fpow y (p_n P)) (d_ky_opening D)).
  Proof.
    intros Hk Hd HG Hx Hy rx E1 E2 E3 E4 EX EY O1 O2 O3 O4 O5.
    destruct (prover_polys CL M P circuit s t y yi HM HT HF HS HN HB Hy) as (u & w & z & rp' & Hu & Hw & Hz & E1' & E2' & L & E3' & E4').
    assert (ES : sx = sx_vec0 u w z) by congruence. subst sx. change (rx_vec (resize (l_a s) (p_n P)) (resize (l_b s) (p_n P)) (resize (l_c s) (p_n P))) with rx in E2', E3', E4'.
    assert (rp' = rp) as -> by congruence. assert (ET : tx = map (product_coeff rx rp) (seq 0 (7 * p_n P + 1))) by congruence. subst tx.
    assert (Lx : length rx = 3 * p_n P + 1) by (apply rx_length; apply resize_len).
    assert (Hn : p_n P = 2 ^ (k - 2)). { pose proof (pow4_div k Hk). lia. }
    assert (Hn0 : 1 <= p_n P). { rewrite Hn. pose proof (Nat.pow_nonzero 2 (k - 2)). lia. }
    rewrite (opening_eq CL) in O1, O2, O3, O4, O5 by (rewrite ?HG, ?Lx; try (intro X; discriminate X); lia).
    rewrite HG, Lx in O4, O5. replace (4 * p_n P - (3 * p_n P + 1)) with (p_n P - 1) in O4, O5 by lia. cbn [fpow] in O1, O2, O3.
    destruct (deferred_compute_eq SL k (p_n P) (resize (l_a s) (p_n P)) (resize (l_b s) (p_n P)) (resize (l_c s) (p_n P)) u w z x xi y yi rp D) as (lhs & rhs & E & Hd');
      try assumption; try apply resize_len; change (rx_vec (resize (l_a s) (p_n P)) (resize (l_b s) (p_n P)) (resize (l_c s) (p_n P))) with rx in *.
    - assert (X : forall a b : Scalar C, Some (fmul a fone) = Some b -> b = a). { intros a b H. assert (b = fmul a fone) by congruence. subst b. ring. }
      apply X in O1. exact O1.
    - assert (X : forall a b : Scalar C, Some (fmul a fone) = Some b -> b = a). { intros a b H. assert (b = fmul a fone) by congruence. subst b. ring. }
      apply X in O2. exact O2.
    - assert (X : forall a b : Scalar C, Some (fmul a fone) = Some b -> b = a). { intros a b H. assert (b = fmul a fone) by congruence. subst b. ring. }
      apply X in O3. exact O3.
    - congruence.
    - congruence.
    - exists lhs, rhs. split; [exact E|]. 
      assert (EC : c = product_coeff rx rp (4 * p_n P)).
      { rewrite (map_nth_error _ _ _ (d := 4 * p_n P)) in E4; [congruence|].
        rewrite (nth_error_nth' _ 0) by (rewrite seq_length; lia). rewrite seq_nth by lia. reflexivity. }
      rewrite EC. split.
      + intro X. apply (fsub_zero SO). rewrite <- Hd', X. ring.
      + intro X. apply (fsub_zero SO). rewrite Hd', X. ring.
  Qed.
End Top.
