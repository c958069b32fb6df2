(** C17-C22, C52: the functions of src/util.rs.  The specification is
    Spec/UtilSpec.v.  [M] is any machine: any number of processors and any
    schedule of the worker threads.  [None] is a panic. *)
From Coq Require Import ZArith List Arith Lia.
From Verif Require Import Model.FieldTrait Model.FieldInst Model.Curve Model.Threads Model.Util Spec.FieldSpec Spec.FieldLaws Spec.CurveSpec
  Spec.CurveLaws Spec.UtilSpec Proofs.FpFq Proofs.CurveInst Proofs.CurveTop Proofs.MultiexpP Proofs.SumP Proofs.FftP Proofs.ParFftP
  Proofs.PolyMulP Proofs.FoldP Proofs.ChallengeP Proofs.UtilTop.
Import ListNotations.
Open Scope nat_scope.

(** C17: [multiexp] is the sum of the multiples (s_i A_i); it panics exactly when
    the lengths differ. *)
Theorem C17_multiexp : forall C r, halo_curve C r -> forall M, machine_ok M ->
  forall (coeffs : list (Scalar C)) (bases : list C) As,
  Forall2 CurveSpec.represents bases As -> length coeffs = length bases -> (Z.of_nat (length bases) < 2 ^ 32)%Z ->
  exists P D, multiexp M coeffs bases = Some P /\ sum_of_multiples coeffs As D /\ CurveSpec.represents P D.
Proof. intros C r [|] M HM coeffs bases As; [exact (multiexp_top Ec0_laws M coeffs bases As HM)|exact (multiexp_top Ec1_laws M coeffs bases As HM)]. Qed.
Theorem C17_multiexp_panics : forall (C : Curve) M (coeffs : list (Scalar C)) (bases : list C),
  multiexp M coeffs bases = None <-> length coeffs <> length bases.
Proof. exact @multiexp_panics. Qed.

(** C18: [compute_inner_product] *)
Theorem C18_inner_product : forall F p v, FieldLaws F p v -> forall a b : list F,
  (length a = length b -> compute_inner_product a b = Some (dot a b)) /\
  (length a <> length b -> compute_inner_product a b = None).
Proof. exact @inner_product_top. Qed.

(** C19: the result of [best_fft] at position k is the value of the polynomial at
    omega^k, on every machine. *)
Theorem C19_fft : forall F p v, FieldLaws F p v -> forall M site (a : list F) omega L,
  length a = 2 ^ L -> L < 32 -> primitive_root omega (2 ^ L) ->
  best_fft M site a omega L = Some (map (fun k => eval_at a (fpow omega k)) (seq 0 (2 ^ L))).
Proof. intros F p v FL. exact (best_fft_eq (fl_ops _ _ _ FL)). Qed.

(** C20: [multiply_polynomials] returns the coefficients of the product, and
    panics exactly on an empty input or a product of more than 2^31 coefficients. *)
Theorem C20_multiply_polynomials : forall F p v, FieldLaws F p v -> forall M, machine_ok M -> forall a b : list F,
  (a <> [] -> b <> [] -> (Z.of_nat (length a + length b - 1) <= 2 ^ 31)%Z ->
   multiply_polynomials M a b = Some (map (product_coeff a b) (seq 0 (length a + length b - 1)))) /\
  (multiply_polynomials M a b = None <-> a = [] \/ b = [] \/ (2 ^ 31 < Z.of_nat (length a + length b - 1))%Z).
Proof. exact @multiply_polynomials_top. Qed.
Theorem C20_product_of_values : forall F p v, FieldLaws F p v -> forall M, machine_ok M -> forall (a b r : list F) x,
  multiply_polynomials M a b = Some r -> eval_at r x = fmul (eval_at a x) (eval_at b x).
Proof. exact @multiply_polynomials_eval. Qed.

(** C21: the closed formulas of the inner product argument are the repeated folds. *)
Theorem C21_compute_b : forall F p v, FieldLaws F p v -> forall (x : F) cs cis,
  (cs <> [] -> length cs = length cis -> exists y, compute_b x cs cis = Some y /\
     fold_vector fold_scalar (combine cs cis) (powers x (2 ^ length cs)) = [y]) /\
  (compute_b x cs cis = None <-> cs = [] \/ length cs <> length cis).
Proof. exact @compute_b_top. Qed.
Theorem C21_compute_g : forall C r, halo_curve C r -> forall M, machine_ok M -> forall (gens : list C) (cs cis : list (Scalar C)),
  Forall valid gens -> (Z.of_nat (length gens) < 2 ^ 32)%Z -> length gens = 2 ^ length cs ->
  Forall2 (fun c ci => fmul c ci = fone) cs cis ->
  exists P Q, compute_g_for_inner_product M gens (map fsquare cs) (fold_right fmul fone cis) = Some P /\
    fold_vector fold_point (combine cs cis) gens = [Q] /\ same_point P Q.
Proof. intros C r [|] M HM gens cs cis; [exact (compute_g_eq Ec0_laws M gens cs cis HM)|exact (compute_g_eq Ec1_laws M gens cs cis HM)]. Qed.
Theorem C21_compute_g_panics : forall (C : Curve) M (gens : list C) sqs allinv,
  compute_g_for_inner_product M gens sqs allinv = None <-> length gens <> 2 ^ length sqs.
Proof. exact @compute_g_panics. Qed.
(** One round in place: the first half becomes the fold, the rest is unchanged. *)
Theorem C21_collapse : forall (C : Curve) M, machine_ok M -> forall (g : list C) c ci,
  (2 <= length g -> parallel_generator_collapse M g c ci = Some (halve (fold_point (c, ci)) g ++ skipn (length g / 2) g)) /\
  (length g < 2 -> parallel_generator_collapse M g c ci = None).
Proof. exact @collapse_top. Qed.

(** C22: multiplying by the scalar of a challenge is the ladder that starts at 3A
    and reads the pairs of bits (2i, 2i+1), i = 1..63. *)
Theorem C22_challenge_ladder : forall C r, halo_curve C r -> forall F1 p1 v1, FieldLaws F1 p1 v1 ->
  forall (P : C) A (challenge : F1), CurveSpec.represents P A -> exists B2 B3 D,
  sum_of A A B2 /\ sum_of B2 A B3 /\ ladder A (challenge_pairs (v1 challenge)) B3 D /\
  CurveSpec.represents (c_mul P (get_challenge_scalar challenge)) D.
Proof.
  intros C r [|] F1 p1 v1 L1 P A ch.
  - exact (challenge_ladder Ec0_laws L1 P A ch beta0).
  - exact (challenge_ladder Ec1_laws L1 P A ch beta1).
Qed.

(** C52: two challenges have the same scalar exactly when they agree on bits
    2..127, and the scalar always has an inverse. *)
Theorem C52_challenge_injective : forall F1 p1 v1, FieldLaws F1 p1 v1 -> forall F2 p2 v2, FieldLaws F2 p2 v2 -> forall a b : F1,
  @get_challenge_scalar F1 F2 a = get_challenge_scalar b <-> forall i, (2 <= i < 128)%Z -> Z.testbit (v1 a) i = Z.testbit (v1 b) i.
Proof. intros F1 p1 v1 L1 F2 p2 v2 L2. exact (challenge_injective L1 L2). Qed.
Theorem C52_challenge_invertible : forall F1 p1 v1, FieldLaws F1 p1 v1 -> forall F2 p2 v2, FieldLaws F2 p2 v2 -> forall a : F1,
  exists i, f_invert (@get_challenge_scalar F1 F2 a) = Some i /\ fmul (get_challenge_scalar a) i = fone.
Proof. intros F1 p1 v1 L1 F2 p2 v2 L2. exact (challenge_nonzero L1 L2). Qed.

(** Concrete cases: the fields and curves of the code, a machine with three
    processors, a schedule that starves the first thread, and data. *)
Definition machine3 : Machine := {| cpus := 3; sched := fun site => [1; 2; 2; 1; 7; 2]; ln_ceil := Nat.log2 |}.
Example machine3_ok : machine_ok machine3.
Proof. exact machine3_top. Qed.
Example fields_meet : FieldLaws Fp p_modulus Fp_val /\ FieldLaws Fq q_modulus Fq_val.
Proof. exact (conj Fp_laws Fq_laws). Qed.
Example points_meet : Forall2 CurveSpec.represents [c_one : Ec0; c_zero] [Some (fone, ec0_Gy); infinity].
Proof. exact points_example. Qed.
Example multiexp_case : exists P D, multiexp machine3 [f_from_u64 5; f_from_u64 7] [c_one : Ec0; c_zero] = Some P /\
  sum_of_multiples (C := Ec0) [f_from_u64 5; f_from_u64 7] [Some (fone, ec0_Gy); infinity] D /\ CurveSpec.represents P D.
Proof. exact (C17_multiexp Ec0 _ halo_ec0 machine3 machine3_ok [f_from_u64 5; f_from_u64 7] _ _ points_meet eq_refl eq_refl). Qed.
(** the element used by the code for domains of every size *)
Example root_meets : forall L, L <= 31 -> primitive_root (fpow (f_ALPHA : Fp) (2 ^ (32 - L))) (2 ^ L).
Proof. exact (alpha_roots Fp_laws). Qed.
Example challenges_meet : exists c ci : Fp, c <> fone /\ Forall2 (fun c ci => fmul c ci = fone) [c; fone] [ci; fone] /\
  Forall valid [c_one : Ec0; c_zero; c_double c_one; c_neg c_one] /\ length [c_one : Ec0; c_zero; c_double c_one; c_neg c_one] = 2 ^ length [c; fone].
Proof. exact challenges_example. Qed.

Print Assumptions C17_multiexp.
Print Assumptions C17_multiexp_panics.
Print Assumptions C18_inner_product.
Print Assumptions C19_fft.
Print Assumptions C20_multiply_polynomials.
Print Assumptions C20_product_of_values.
Print Assumptions C21_compute_b.
Print Assumptions C21_compute_g.
Print Assumptions C21_compute_g_panics.
Print Assumptions C21_collapse.
Print Assumptions C22_challenge_ladder.
Print Assumptions C52_challenge_injective.
Print Assumptions C52_challenge_invertible.
