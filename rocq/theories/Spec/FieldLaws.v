(** What it means for an implementation of the [Field] trait to be the prime
    field of order [p]: [v] reads an element as an integer of [0, p). *)
From Coq Require Import ZArith List Znumtheory.
From Verif Require Import Model.FieldTrait.
Open Scope Z_scope.

Record OpsLaws (F : FieldOps) (p : Z) (v : F -> Z) : Prop := {
  ol_prime : prime p;
  ol_odd : 2 < p;
  ol_range : forall a, 0 <= v a < p;
  ol_inj : forall a b, v a = v b -> a = b;
  ol_surj : forall z, 0 <= z < p -> exists a, v a = z;
  ol_zero : v fzero = 0;
  ol_one : v fone = 1;
  ol_add : forall a b, v (fadd a b) = (v a + v b) mod p;
  ol_sub : forall a b, v (fsub a b) = (v a - v b) mod p;
  ol_mul : forall a b, v (fmul a b) = (v a * v b) mod p;
  ol_neg : forall a, v (fneg a) = (- v a) mod p;
  ol_square : forall a, v (fsquare a) = (v a * v a) mod p;
  ol_eqb : forall a b, feqb a b = true <-> v a = v b
}.

Definition byte (b : Z) : Prop := 0 <= b < 256.
Fixpoint le_val (bs : list Z) : Z :=
  match bs with nil => 0 | cons b bs => b + 256 * le_val bs end.
Definition limbs_val (e : limbs) : Z :=
  l0 e + 2 ^ 64 * l1 e + 2 ^ 128 * l2 e + 2 ^ 192 * l3 e.
Definition limbs_wf (e : limbs) : Prop :=
  0 <= l0 e < 2 ^ 64 /\ 0 <= l1 e < 2 ^ 64 /\ 0 <= l2 e < 2 ^ 64 /\ 0 <= l3 e < 2 ^ 64.

Record FieldLaws (F : Field) (p : Z) (v : F -> Z) : Prop := {
  fl_ops : OpsLaws F p v;
  fl_size : 2 ^ 254 < p < 2 ^ 255;
  fl_from_bool : forall b, v (f_from_bool b) = if b then 1 else 0;
  fl_from_u64 : forall x, 0 <= x < 2 ^ 64 -> v (f_from_u64 x) = x;
  fl_from_u128 : forall x, 0 <= x < 2 ^ 128 -> v (f_from_u128 x) = x;
  fl_invert_zero : forall a, v a = 0 -> f_invert a = None;
  fl_invert : forall a, v a <> 0 -> exists b, f_invert a = Some b /\ (v a * v b) mod p = 1;
  fl_sqrt_some : forall a b, f_sqrt a = Some b -> (v b * v b) mod p = v a;
  fl_sqrt_none : forall a, f_sqrt a = None -> forall z, (z * z) mod p <> v a;
  fl_to_bytes : forall a, length (f_to_bytes a) = 32%nat /\ Forall byte (f_to_bytes a)
                          /\ le_val (f_to_bytes a) = v a;
  fl_from_bytes : forall bs, length bs = 32%nat -> Forall byte bs ->
    (le_val bs < p -> exists a, @f_from_bytes F bs = Some a /\ v a = le_val bs) /\
    (p <= le_val bs -> @f_from_bytes F bs = None);
  fl_lower : forall a, f_get_lower_128 a = v a mod 2 ^ 128;
  (* the field parameters *)
  fl_S : f_S F = 32%nat;
  fl_two_adic : (p - 1) mod 2 ^ 32 = 0;
  fl_alpha : f_RESCUE_ALPHA F = 5;
  fl_ALPHA : (v f_ALPHA ^ (2 ^ 31)) mod p = p - 1;
  fl_invalpha_wf : limbs_wf (f_RESCUE_INVALPHA F);
  fl_invalpha : (5 * limbs_val (f_RESCUE_INVALPHA F)) mod (p - 1) = 1;
  fl_beta : v f_BETA <> 1 /\ (v f_BETA ^ 3) mod p = 1
}.
