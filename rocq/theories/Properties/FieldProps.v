(** C01-C09: the two prime fields.  [represents P a x] (Spec/FieldSpec.v) says
    that the limbs [a] are the fully reduced representation of the integer [x]. *)
From Coq Require Import ZArith List Znumtheory.
From Verif Require Import Model.FieldLimbs Model.FieldInst Spec.FieldSpec Spec.FieldLaws
  Proofs.FieldTop Proofs.FieldInstP Proofs.FpFq.
Import ListNotations.
Open Scope Z_scope.

(** Elements and integers of [0, modulus) are in one-to-one correspondence. *)
Theorem C01_representation_bijective : forall P, halo_field P ->
  (forall a, canonical P a -> exists! x, represents P a x) /\
  (forall x, 0 <= x < modulus P -> exists! a, represents P a x).
Proof. exact rep_bij. Qed.
Print Assumptions C01_representation_bijective.

Theorem C01_field_arithmetic : forall P, halo_field P ->
  forall a b x y, represents P a x -> represents P b y ->
  represents P (fe_add P a b) ((x + y) mod modulus P) /\
  represents P (fe_sub P a b) ((x - y) mod modulus P) /\
  represents P (fe_mul P a b) ((x * y) mod modulus P) /\
  represents P (fe_neg P a) ((- x) mod modulus P) /\
  represents P (fe_double P a) ((2 * x) mod modulus P) /\
  represents P (fe_square P a) ((x * x) mod modulus P) /\
  (fe_ct_eq a b = true <-> x = y) /\ (fe_is_zero a = true <-> x = 0).
Proof. exact arith_all. Qed.
Print Assumptions C01_field_arithmetic.

Theorem C02_integer_conversions : forall P, halo_field P ->
  (forall b, represents P (fe_from_bool P b) (if b then 1 else 0)) /\
  (forall n, 0 <= n < 2 ^ 64 -> represents P (fe_from P n) n /\ represents P (fe_from_u64 P n) n) /\
  (forall n, 0 <= n < 2 ^ 128 -> represents P (fe_from_u128 P n) n) /\
  (forall w, wf_limbs w -> represents P (fe_from_raw P w) (val w mod modulus P)) /\
  (forall bs, length bs = 64%nat -> Forall is_byte bs ->
     represents P (fe_from_bytes_wide P bs) (le_value bs mod modulus P)).
Proof. exact conv_all. Qed.
Print Assumptions C02_integer_conversions.

Theorem C03_byte_encoding : forall P, halo_field P ->
  (forall a x, represents P a x ->
     length (fe_to_bytes P a) = 32%nat /\ Forall is_byte (fe_to_bytes P a) /\
     le_value (fe_to_bytes P a) = x /\ fe_from_bytes P (fe_to_bytes P a) = Some a) /\
  (forall bs, length bs = 32%nat -> Forall is_byte bs ->
     (le_value bs < modulus P -> exists a, fe_from_bytes P bs = Some a /\
        represents P a (le_value bs) /\ fe_to_bytes P a = bs) /\
     (modulus P <= le_value bs -> fe_from_bytes P bs = None)).
Proof. exact bytes_all. Qed.
Print Assumptions C03_byte_encoding.

Theorem C04_exponentiation : forall P, halo_field P ->
  forall a x e, represents P a x -> wf_limbs e ->
  fe_pow P a e = fe_pow_vartime P a e /\
  represents P (fe_pow P a e) (mod_pow (modulus P) x (Z.to_nat (val e))).
Proof. exact pow_all. Qed.
Print Assumptions C04_exponentiation.

Theorem C05_inversion : forall P, halo_field P -> forall a x, represents P a x ->
  (x = 0 -> fe_invert P a = None) /\
  (x <> 0 -> exists b, fe_invert P a = Some b /\
     exists y, represents P b y /\ (x * y) mod modulus P = 1 /\
       forall z, 0 <= z < modulus P -> (x * z) mod modulus P = 1 -> z = y).
Proof. exact inv_all. Qed.
Print Assumptions C05_inversion.

Theorem C06_square_root : forall P, halo_field P -> forall a x, represents P a x ->
  ((exists z, (z * z) mod modulus P = x) <-> fe_sqrt P a <> None) /\
  (forall b, fe_sqrt P a = Some b -> exists y, represents P b y /\ (y * y) mod modulus P = x).
Proof. exact sqrt_all. Qed.
Print Assumptions C06_square_root.

Theorem C07_batch_inversion : forall P, halo_field P ->
  forall vs xs, Forall2 (represents P) vs xs ->
  exists ws allinv, fe_batch_invert P vs = Some (ws, allinv) /\ length ws = length vs /\
    (forall i a x, nth_error vs i = Some a -> represents P a x -> exists b y,
       nth_error ws i = Some b /\ represents P b y /\
       (if x =? 0 then y = 0 else (x * y) mod modulus P = 1)) /\
    (exists c, represents P allinv c /\
       (fold_right (fun x r => if x =? 0 then r else x * r) 1 xs * c) mod modulus P = 1).
Proof.
  exact (fun P H => fe_batch_invert_ok P (halo_ok P H) (halo_consts P H) (halo_z0 P H)).
Qed.
Print Assumptions C07_batch_inversion.

Theorem C08_field_parameters : forall P, halo_field P ->
  prime (modulus P) /\
  (exists w, represents P (ROOT_OF_UNITY P) w /\ w ^ (2 ^ 32) mod modulus P = 1 /\
     forall k, 0 < k < 2 ^ 32 -> w ^ k mod modulus P <> 1) /\
  (exists b, represents P (fe_BETA P) b /\ b <> 1 /\ b ^ 3 mod modulus P = 1) /\
  (forall x, 0 <= x < modulus P ->
     (x ^ cRESCUE_ALPHA) ^ val (cRESCUE_INVALPHA P) mod modulus P = x /\
     (x ^ val (cRESCUE_INVALPHA P)) ^ cRESCUE_ALPHA mod modulus P = x).
Proof. exact params_all. Qed.
Print Assumptions C08_field_parameters.

Theorem C08_published_moduli :
  modulus fp_params = 0x5c5e464a35c12769bac2a757742b393081be9c1a3201248299fffe7d00000001 /\
  modulus fq_params = 0x5c5e464a35c12769bac2a757742b39311b849d0f1801860419fffe7d00000001 /\
  prime p_modulus /\ prime q_modulus.
Proof. exact (conj eq_refl (conj eq_refl (conj Primes.p_prime Primes.q_prime))). Qed.
Print Assumptions C08_published_moduli.

Theorem C09_lower_128 : forall P, halo_field P -> forall a x, represents P a x ->
  fe_get_lower_128 P a = x mod 2 ^ 128.
Proof. exact (fun P H => FieldRepP.get_lower_rep P (halo_ok P H)). Qed.
Print Assumptions C09_lower_128.

(** Both trait implementations satisfy the abstract interface that the generic
    developments (circuits, polynomials, curves, protocol) are written against. *)
Theorem fields_implement_interface :
  FieldLaws Fp p_modulus Fp_val /\ FieldLaws Fq q_modulus Fq_val.
Proof. exact (conj Fp_laws Fq_laws). Qed.
Print Assumptions fields_implement_interface.

(** Closed goals of the form [represents P a x] by computation. *)
Ltac rep_compute :=
  split; [split; [split; [|split; [|split]]; split|]|split; [split|]];
  vm_compute; first [reflexivity | discriminate].

(** Non-vacuity: concrete elements of both fields, with non-trivial values. *)
Example nv_p : represents fp_params (fe_from_u64 fp_params 12345) 12345.
Proof. rep_compute. Qed.
Example nv_q : represents fq_params (fe_from_raw fq_params (L4 1 2 3 4))
   (1 + 2 * 2 ^ 64 + 3 * 2 ^ 128 + 4 * 2 ^ 192).
Proof.
  rep_compute.
Qed.
(** A product that wraps around the modulus: (p - 1) * (p - 1) = 1. *)
Example nv_mul_wraps : represents fp_params
  (fe_mul fp_params (fe_neg fp_params (fe_one fp_params)) (fe_neg fp_params (fe_one fp_params))) 1.
Proof.
  assert (R : represents fp_params (fe_neg fp_params (fe_one fp_params)) (p_modulus - 1)) by
    (rep_compute).
  pose proof (proj1 (proj2 (proj2 (C01_field_arithmetic fp_params (or_introl eq_refl) _ _ _ _ R R)))) as M.
  exact M.
Qed.
(** A square and a non-square, both decided by [sqrt]. *)
Example nv_sqrt_square : exists b, fe_sqrt fp_params (fe_from_u64 fp_params 4) = Some b.
Proof.
  assert (R : represents fp_params (fe_from_u64 fp_params 4) 4) by
    (rep_compute).
  destruct (C06_square_root fp_params (or_introl eq_refl) _ _ R) as [[A _] _].
  specialize (A (ex_intro _ 2 eq_refl)). revert A.
  generalize (fe_sqrt fp_params (fe_from_u64 fp_params 4)) as o. intros [b|] A; [exists b; reflexivity|].
  contradiction A. reflexivity.
Qed.
