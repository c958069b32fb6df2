(** Both curves satisfy Spec/CurveLaws.v. *)
From Coq Require Import List Bool ZArith Lia Ring Field Znumtheory Uint63.
From Verif Require Import Lib.AbGroup Lib.Fast63 Lib.FastCurve Model.FieldTrait Model.FieldLimbs Model.FieldInst Model.Curve
  Spec.FieldSpec Spec.FieldLaws Spec.CurveSpec Spec.CurveLaws
  Proofs.FieldLimbsP Proofs.FieldRepP Proofs.FieldGen Proofs.ZtoF Proofs.FieldInstP Proofs.Primes Proofs.FpFq
  Proofs.CurveP Proofs.CurveCodeP Proofs.CurveOrderP.
Import ListNotations.
Open Scope Z_scope.

(** everything that is computed about one curve *)
Definition curve_cert (p r b gy beta lambda : Z) : bool :=
  (let n := digits 9 p in let ninv := 1073741823%uint63 in
   let m1 := toM p (-1) in let l3 := toM p (3 * b) in let ml3 := toM p (- (3 * b)) in
   (ctx_ok p n ninv && (p - 1 =? 3 * ((p - 1) / 3)) && (p - 1 =? 2 * ((p - 1) / 2))
   && pow_not_one (p := p) n ninv (- b) ((p - 1) / 3) && pow_not_one (p := p) n ninv b ((p - 1) / 2)
   && negb (b mod p =? 0) && ((gy * gy) mod p =? (1 + b) mod p)
   && (r mod 2 =? 1) && (2 * p + 1 <? 3 * r)
   && order_check (p := p) n ninv m1 l3 ml3 1 gy r
   && multiple_check (p := p) n ninv m1 l3 ml3 1 gy lambda beta gy))%bool.

Section Inst.
  Context {F S : Field} {p v} (FL : FieldLaws F p v) {r vs} (SL : FieldLaws S r vs).
  Let OL := fl_ops _ _ _ FL.
  Let SO := fl_ops _ _ _ SL.
  Add Field Ff : (ffield OL).
  Variables b b3 gy : F.
  Hypothesis Hb3 : v b3 = (3 * v b) mod p.
  Hypothesis cert : curve_cert p r (v b) (v gy) (v f_BETA) (vs f_BETA) = true.
  Notation C := (curve_of F S b b3 gy).
  Notation n := (digits 9 p).
  Notation ninv := 1073741823%uint63.

  Lemma certs : ctx_ok p n ninv = true /\ p - 1 = 3 * ((p - 1) / 3) /\ p - 1 = 2 * ((p - 1) / 2)
    /\ pow_not_one (p := p) n ninv (- v b) ((p - 1) / 3) = true /\ pow_not_one (p := p) n ninv (v b) ((p - 1) / 2) = true
    /\ (v b) mod p <> 0 /\ (v gy * v gy) mod p = (1 + v b) mod p /\ r mod 2 = 1 /\ 2 * p + 1 < 3 * r
    /\ order_check (p := p) n ninv (toM p (-1)) (toM p (3 * v b)) (toM p (- (3 * v b))) 1 (v gy) r = true
    /\ multiple_check (p := p) n ninv (toM p (-1)) (toM p (3 * v b)) (toM p (- (3 * v b))) 1 (v gy) (vs f_BETA) (v f_BETA) (v gy) = true.
  Proof.
    revert cert. unfold curve_cert. cbv zeta. rewrite !andb_true_iff, negb_true_iff, !Z.eqb_eq, Z.ltb_lt, Z.eqb_neq.
    intros ((((((((((H1 & H2) & H3) & H4) & H5) & H6) & H7) & H8) & H9) & H10) & H11). tauto.
  Qed.
  Lemma b3_eq : b3 = fadd (fadd b b) b.
  Proof.
    apply (ol_inj _ _ _ OL). rewrite Hb3, !(ol_add _ _ _ OL), Zplus_mod_idemp_l. f_equal. ring.
  Qed.
  Lemma b_neq0 : b <> fzero.
  Proof. destruct certs as (_ & _ & _ & _ & _ & H & _). intros ->. apply H. rewrite (ol_zero _ _ _ OL). apply Z.mod_0_l. pose proof (ol_odd _ _ _ OL). lia. Qed.
  Lemma no_root0 : forall u : F, fadd (fmul (fmul u u) u) b <> fzero.
  Proof.
    intros u H. destruct certs as (H1 & H2 & _ & H4 & _). pose proof (ol_odd _ _ _ OL).
    apply (pow_not_one_spec FL n ninv H1) in H4. rewrite (fz_opp OL), (fz_v OL) in H4.
    refine (not_power FL 3 ((p - 1) / 3) (fneg b) u _ _ H2 _ H4 _); [lia|apply Z.div_pos; lia| |].
    - intro E. apply b_neq0. replace b with (fneg (fneg b)) by ring. rewrite E. ring.
    - change 3 with (Z.succ 2). rewrite (zpow_succ OL) by lia. rewrite zpow_2.
      transitivity (fsub (fadd (fmul (fmul u u) u) b) b); [ring|]. rewrite H. ring.
  Qed.
  Lemma nonsquare0 : forall y : F, fmul y y <> b.
  Proof.
    intros y H. destruct certs as (H1 & _ & H3 & _ & H5 & _). pose proof (ol_odd _ _ _ OL).
    apply (pow_not_one_spec FL n ninv H1) in H5. rewrite (fz_v OL) in H5.
    refine (not_power FL 2 ((p - 1) / 2) b y _ _ H3 b_neq0 H5 _); [lia|apply Z.div_pos; lia|].
    rewrite zpow_2. exact H.
  Qed.
  Notation G := (ECG FL b no_root0).
  Lemma gen_on : on_curve b (Some (fone, gy)).
  Proof.
    cbn [on_curve]. destruct certs as (_ & _ & _ & _ & _ & _ & H & _). apply (ol_inj _ _ _ OL).
    rewrite (ol_mul _ _ _ OL), H, (ol_add _ _ _ OL). f_equal. f_equal.
    symmetry. transitivity (v fone); [f_equal; ring|apply (ol_one _ _ _ OL)].
  Qed.
  Definition gen : G := ec_mk FL b _ gen_on.
  Lemma beta_cube : fmul (fmul (@f_BETA F) f_BETA) f_BETA = fone.
  Proof.
    destruct (fl_beta _ _ _ FL) as [_ H]. apply (ol_inj _ _ _ OL). rewrite (ol_one _ _ _ OL), <- H, !(ol_mul _ _ _ OL).
    rewrite Zmult_mod_idemp_l. f_equal. ring.
  Qed.
  Lemma hm1 : fr (p := p) (toM p (-1)) (fneg (@fone F)).
  Proof. destruct certs as (H1 & _). apply (fr_toM n ninv H1 (-1)). Qed.
  Lemma fz3b : fz (3 * v b) = fadd (fadd b b) b.
  Proof. replace (3 * v b) with (v b + v b + v b) by ring. rewrite !(fz_add OL), (fz_v OL). reflexivity. Qed.
  Lemma hl3 : fr (p := p) (toM p (3 * v b)) (fadd (fadd b b) b).
  Proof. destruct certs as (H1 & _). rewrite <- fz3b. apply (fr_toM n ninv H1). Qed.
  Lemma hml3 : fr (p := p) (toM p (- (3 * v b))) (fneg (fadd (fadd b b) b)).
  Proof. destruct certs as (H1 & _). rewrite <- fz3b, <- (fz_opp OL). apply (fr_toM n ninv H1). Qed.
  Lemma gen_fz : proj1_sig gen = Some (fz 1, fz (v gy)).
  Proof. cbn. rewrite (fz_v OL). reflexivity. Qed.
  Lemma gen_order : zmul r gen = g0.
  Proof.
    destruct certs as (H1 & _ & _ & _ & _ & _ & _ & _ & _ & H & _).
    apply (order_check_spec FL b no_root0 n ninv H1 _ _ _ hm1 hl3 hml3 _ _ _ gen gen_fz H).
  Qed.
  Lemma gen_endo : zmul (vs f_BETA) gen = ec_endo FL b no_root0 f_BETA beta_cube gen.
  Proof.
    destruct certs as (H1 & _ & _ & _ & _ & _ & _ & _ & _ & _ & H).
    apply (multiple_check_spec FL b no_root0 n ninv H1 _ _ _ hm1 hl3 hml3 _ _ _ _ _ gen _ gen_fz) with (2 := H).
    cbn. rewrite !(fz_v OL). f_equal. f_equal. ring.
  Qed.
  Lemma gen_neq : gen <> g0.
  Proof. intro E. apply (f_equal (@proj1_sig _ _)) in E. discriminate E. Qed.

  Definition inst_laws : CurveLaws C p v r vs.
  Proof.
    pose proof certs as (_ & _ & _ & _ & _ & _ & _ & R1 & R2 & _).
    pose proof (ol_prime _ _ _ SO) as RP.
    refine {| cl_base := FL : FieldLaws (Base C) p v; cl_scalar := SL : FieldLaws (Scalar C) r vs;
              cl_no_root := no_root0 : forall u : Base C, _; cl_b_nonsquare := nonsquare0 : forall u : Base C, _;
              cl_group := G; cl_point := (fun g : G => proj1_sig g : point (Base C)); cl_gen := gen |}.
    - intros g h. apply (ec_eq b).
    - intro g. apply (ec_on FL b).
    - intros A HA. exists (ec_mk FL b A HA). reflexivity.
    - reflexivity.
    - intros g h A. apply (sum_gp FL b no_root0).
    - reflexivity.
    - exact (ec_cyclic FL b no_root0 r gen RP R1 R2 gen_order gen_neq).
    - exact (ec_order FL b no_root0 r gen RP R1 R2 gen_order gen_neq).
    - exact gen_neq.
    - exact (rep_zero FL b b3 gy).
    - exact (from_xy_unchecked_rep FL b b3 gy fone gy gen_on).
    - exact (ecrep_add FL b b3 gy b3_eq no_root0).
    - exact (ecrep_sub FL b b3 gy b3_eq no_root0).
    - exact (ecrep_neg FL b b3 gy no_root0).
    - exact (ecrep_double FL b b3 gy b3_eq no_root0).
    - exact (ecrep_mul FL SL b b3 gy b3_eq no_root0).
    - apply select_spec.
    - exact (is_zero_spec FL b b3 gy).
    - exact (eqb_spec FL b b3 gy).
    - exact (get_xy_rep FL b b3 gy).
    - exact (from_xy_spec FL b b3 gy nonsquare0).
    - exact (from_xy_unchecked_rep FL b b3 gy).
    - exact (is_on_curve_rep FL b b3 gy).
    - exact (is_on_curve_valid FL b b3 gy).
    - exact (decode_encode FL b b3 gy no_root0 nonsquare0).
    - exact (to_bytes_shape FL b b3 gy).
    - exact (encode_decode FL b b3 gy no_root0 nonsquare0).
    - exact beta_cube.
    - intros g x y E. 
      pose proof (ec_endo_all FL b no_root0 f_BETA beta_cube r (vs f_BETA) gen RP R1 R2 gen_order gen_neq gen_endo g) as H.
      change (proj1_sig (zmul (vs f_BETA) g) = Some (fmul f_BETA x, y)). rewrite <- H. cbn. cbn in E. rewrite E. reflexivity.
  Defined.
End Inst.

Lemma fq_raw_val l : wf_limbs l -> Fq_val (fq_raw l) = val l mod q_modulus.
Proof. intro W. apply (val_of_rep fq_params fq_ok). rewrite <- fq_modulus. apply (from_raw_rep fq_params fq_ok l W). Qed.
Lemma fp_raw_val l : wf_limbs l -> Fp_val (fp_raw l) = val l mod p_modulus.
Proof. intro W. apply (val_of_rep fp_params fp_ok). rewrite <- fp_modulus. apply (from_raw_rep fp_params fp_ok l W). Qed.
Lemma fp_beta_val : Fp_val f_BETA = val (BETA_raw fp_params) mod p_modulus.
Proof. apply (fp_raw_val (BETA_raw fp_params)). wf. Qed.
Lemma fq_beta_val : Fq_val f_BETA = val (BETA_raw fq_params) mod q_modulus.
Proof. apply (fq_raw_val (BETA_raw fq_params)). wf. Qed.

Definition ec0_gy : Z := 0xcd539c198b2acdf622572e64860fa80f027d2b37cab63258470e2773a41d265.
Definition ec1_gy : Z := 0x5e808425ee1f35fbecc40aa0beec5c0f33aba0091f5fdeb793f9e8949e6de0d.
Definition beta_p : Z := Eval vm_compute in val (BETA_raw fp_params) mod p_modulus.
Definition beta_q : Z := Eval vm_compute in val (BETA_raw fq_params) mod q_modulus.
Lemma cert0 : curve_cert q_modulus p_modulus 5 ec0_gy beta_q beta_p = true.
Proof. vm_compute. reflexivity. Qed.
Lemma cert1 : curve_cert p_modulus q_modulus 7 ec1_gy beta_p beta_q = true.
Proof. vm_compute. reflexivity. Qed.
Definition Ec0_laws : CurveLaws Ec0 q_modulus Fq_val p_modulus Fp_val.
Proof.
  apply (inst_laws Fq_laws Fp_laws).
  - unfold ec0_3B, ec0_B. rewrite !fq_raw_val by wf. vm_compute. reflexivity.
  - rewrite fp_beta_val, fq_beta_val. unfold ec0_B, ec0_Gy. rewrite !fq_raw_val by wf. exact cert0.
Defined.
Definition Ec1_laws : CurveLaws Ec1 p_modulus Fp_val q_modulus Fq_val.
Proof.
  apply (inst_laws Fp_laws Fq_laws).
  - unfold ec1_3B, ec1_B. rewrite !fp_raw_val by wf. vm_compute. reflexivity.
  - rewrite fp_beta_val, fq_beta_val. unfold ec1_B, ec1_Gy. rewrite !fp_raw_val by wf. exact cert1.
Defined.
Lemma gen0_rep : represents (c_one : Ec0) (Some (fone, ec0_Gy)).
Proof.
  apply (from_xy_unchecked_rep (S := Fp) Fq_laws ec0_B ec0_3B ec0_Gy fone ec0_Gy). cbn [on_curve].
  pose proof (fl_ops _ _ _ Fq_laws) as OL. apply (ol_inj _ _ _ OL).
  rewrite (ol_add _ _ _ OL), !(ol_mul _ _ _ OL), (ol_one _ _ _ OL). unfold ec0_Gy, ec0_B. rewrite !fq_raw_val by wf.
  vm_compute. reflexivity.
Qed.
Lemma gen1_rep : represents (c_one : Ec1) (Some (fone, ec1_Gy)).
Proof.
  apply (from_xy_unchecked_rep (S := Fq) Fp_laws ec1_B ec1_3B ec1_Gy fone ec1_Gy). cbn [on_curve].
  pose proof (fl_ops _ _ _ Fp_laws) as OL. apply (ol_inj _ _ _ OL).
  rewrite (ol_add _ _ _ OL), !(ol_mul _ _ _ OL), (ol_one _ _ _ OL). unfold ec1_Gy, ec1_B. rewrite !fp_raw_val by wf.
  vm_compute. reflexivity.
Qed.
