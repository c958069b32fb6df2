(** The statements of Properties/UtilProps.v. *)
From Coq Require Import ZArith List Arith Lia Ring Field.
From Verif Require Import Model.FieldTrait Model.FieldInst Model.Curve Model.Threads Model.Util Spec.FieldSpec Spec.FieldLaws Spec.CurveSpec
  Spec.CurveLaws Spec.UtilSpec Proofs.FieldGen Proofs.FpFq Proofs.CurveInst Proofs.CurveTop Proofs.MultiexpP Proofs.SumP Proofs.FftP Proofs.ParFftP
  Proofs.PolyMulP Proofs.FoldP.
Import ListNotations.
Open Scope nat_scope.

Section F.
  Context {F : Field} {p v} (FL : FieldLaws F p v).
  Let OL := fl_ops _ _ _ FL.
  Add Field Ff : (ffield OL).

  Lemma dot_cons x y (a b : list F) : dot (x :: a) (y :: b) = fadd (fmul x y) (dot a b).
  Proof. unfold dot. cbn [length]. rewrite (fsum_S_l OL). reflexivity. Qed.
  Lemma inner_fold (a : list F) : forall b acc, length a = length b ->
    fold_left (fun acc '(a, b) => fadd acc (fmul a b)) (combine a b) acc = fadd acc (dot a b).
  Proof.
    induction a as [|x a IH]; intros [|y b] acc H; cbn [length] in H; try discriminate H.
    - unfold dot. cbn. ring.
    - cbn [combine fold_left]. rewrite IH by congruence. rewrite dot_cons. ring.
  Qed.
  Lemma inner_product_top (a b : list F) :
    (length a = length b -> compute_inner_product a b = Some (dot a b)) /\
    (length a <> length b -> compute_inner_product a b = None).
  Proof.
    unfold compute_inner_product. split; intro H.
    - rewrite (proj2 (Nat.eqb_eq _ _) H), inner_fold by exact H. f_equal. ring.
    - rewrite (proj2 (Nat.eqb_neq _ _) H). reflexivity.
  Qed.
  Lemma multiply_polynomials_top M : machine_ok M -> forall a b : list F,
    (a <> [] -> b <> [] -> (Z.of_nat (length a + length b - 1) <= 2 ^ 31)%Z ->
     multiply_polynomials M a b = Some (map (product_coeff a b) (seq 0 (length a + length b - 1)))) /\
    (multiply_polynomials M a b = None <-> a = [] \/ b = [] \/ (2 ^ 31 < Z.of_nat (length a + length b - 1))%Z).
  Proof.
    intros HM a b. split; [|exact (multiply_polynomials_panics FL M a b HM)].
    intros Ha Hb HL. apply (multiply_polynomials_eq FL M a b HM); [destruct a; [congruence|cbn; lia]|destruct b; [congruence|cbn; lia]|exact HL].
  Qed.
  Lemma multiply_polynomials_eval M : machine_ok M -> forall (a b r : list F) x,
    multiply_polynomials M a b = Some r -> eval_at r x = fmul (eval_at a x) (eval_at b x).
  Proof.
    intros HM a b r x H.
    destruct a as [|a0 a]; [discriminate H|].
    destruct b as [|b0 b]; [rewrite (proj2 (multiply_polynomials_panics FL M (a0 :: a) [] HM) (or_intror (or_introl eq_refl))) in H; discriminate H|].
    destruct (Z.le_gt_cases (Z.of_nat (length (a0 :: a) + length (b0 :: b) - 1)) (2 ^ 31)) as [HL|HL].
    - rewrite (multiply_polynomials_eq FL M _ _ HM) in H; [|cbn; lia|cbn; lia|exact HL].
      assert (E : r = map (product_coeff (a0 :: a) (b0 :: b)) (seq 0 (length (a0 :: a) + length (b0 :: b) - 1))) by congruence.
      rewrite E. set (n := length (a0 :: a) + length (b0 :: b) - 1) in *. unfold eval_at at 1. rewrite map_length, seq_length.
      rewrite <- (eval_product FL (a0 :: a) (b0 :: b) n x) by (cbn in *; lia).
      apply fsum_ext. intros i Hi. unfold coeff at 1. rewrite nth_map_seq by exact Hi. reflexivity.
    - rewrite (proj2 (multiply_polynomials_panics FL M (a0 :: a) (b0 :: b) HM) (or_intror (or_intror HL))) in H. discriminate H.
  Qed.
  Lemma compute_b_top (x : F) cs cis :
    (cs <> [] -> length cs = length cis -> exists y, compute_b x cs cis = Some y /\
       fold_vector fold_scalar (combine cs cis) (powers x (2 ^ length cs)) = [y]) /\
    (compute_b x cs cis = None <-> cs = [] \/ length cs <> length cis).
  Proof. split; [exact (compute_b_eq OL x cs cis)|exact (compute_b_panics x cs cis)]. Qed.
  Lemma alpha_roots L : L <= 31 -> primitive_root (fpow (f_ALPHA : F) (2 ^ (32 - L))) (2 ^ L).
  Proof.
    intro H. pose proof (alpha_root FL L ltac:(lia)) as R. rewrite (fl_S _ _ _ FL) in R.
    pose proof (squares FL 0 (@f_ALPHA F) (32 - L) L) as E. cbn [Nat.pow] in E. rewrite (fpow_1 OL) in E. rewrite E in R. exact R.
  Qed.
  Lemma one_sq : fmul (@fone F) fone = fone. Proof. ring. Qed.
  Lemma neg_one_sq : fmul (fneg (@fone F)) (fneg fone) = fone. Proof. ring. Qed.
End F.

Lemma collapse_top (C : Curve) M : machine_ok M -> forall (g : list C) c ci,
  (2 <= length g -> parallel_generator_collapse M g c ci = Some (halve (fold_point (c, ci)) g ++ skipn (length g / 2) g)) /\
  (length g < 2 -> parallel_generator_collapse M g c ci = None).
Proof. intros HM g c ci. split; [exact (collapse_eq M g c ci HM)|exact (proj2 (collapse_panics M g c ci HM))]. Qed.
Lemma beta0 : f_BETA = BETA_SCALAR Ec0. Proof. reflexivity. Qed.
Lemma beta1 : f_BETA = BETA_SCALAR Ec1. Proof. reflexivity. Qed.
Lemma machine3_top : machine_ok {| cpus := 3; sched := fun site => [1; 2; 2; 1; 7; 2]; ln_ceil := Nat.log2 |}.
Proof.
  split; [cbn; lia|]. intros n H1 H2. cbn [ln_ceil].
  assert (H : Nat.log2 n < 32). { apply Nat.log2_lt_pow2; [lia|]. apply Nat2Z.inj_lt. rewrite Nat2Z.inj_pow. exact H2. }
  assert (H5 : 5 <= Nat.log2 n). { change 5 with (Nat.log2 32). apply Nat.log2_le_mono. exact H1. } lia.
Qed.
Lemma points_example : Forall2 CurveSpec.represents [c_one : Ec0; c_zero] [Some (fone, ec0_Gy); infinity].
Proof. constructor; [exact gen0_rep|]. constructor; [|constructor]. exact (cl_rep_zero _ _ _ _ _ Ec0_laws). Qed.
Lemma challenges_example : exists c ci : Fp, c <> fone /\ Forall2 (fun c ci => fmul c ci = fone) [c; fone] [ci; fone] /\
  Forall valid [c_one : Ec0; c_zero; c_double c_one; c_neg c_one] /\ length [c_one : Ec0; c_zero; c_double c_one; c_neg c_one] = 2 ^ length [c; fone].
Proof.
  assert (OL : OpsLaws Fp p_modulus Fp_val) by exact (fl_ops _ _ _ Fp_laws).
  assert (M1 : fmul (@fone Fp) fone = fone) by exact (one_sq Fp_laws).
  assert (H2 : exists c ci : Fp, c <> fone /\ fmul c ci = fone).
  { exists (fneg fone), (fneg fone). split; [exact (neg_one_neq_one OL)|]. exact (neg_one_sq Fp_laws). }
  destruct H2 as (c & ci & Hc & Hi). exists c, ci. split; [exact Hc|]. split; [constructor; [exact Hi|constructor; [exact M1|constructor]]|].
  destruct (valid_top Ec0_laws) as (V0 & V1 & _ & VU). destruct (VU _ V1) as (VN & VD & _).
  split; [|reflexivity]. repeat apply Forall_cons; try assumption. apply Forall_nil.
Qed.
