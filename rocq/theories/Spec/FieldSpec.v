(** What a limb quadruple means, independently of how the code computes. *)
From Coq Require Import ZArith List Znumtheory.
From Verif Require Import Model.FieldLimbs.
Open Scope Z_scope.

(** A 64-bit machine word. *)
Definition is_u64 (x : Z) : Prop := 0 <= x < 2 ^ 64.
Definition wf_limbs (a : limbs) : Prop :=
  is_u64 (l0 a) /\ is_u64 (l1 a) /\ is_u64 (l2 a) /\ is_u64 (l3 a).

(** The 256-bit integer written in the four limbs, least significant first. *)
Definition val (a : limbs) : Z :=
  l0 a + 2 ^ 64 * l1 a + 2 ^ 128 * l2 a + 2 ^ 192 * l3 a.

(** The modulus as an integer. *)
Definition modulus (P : fparams) : Z := val (MODULUS P).

(** The published moduli (doc comments fp.rs:71, fq.rs:71). *)
Definition p_modulus : Z := 0x5c5e464a35c12769bac2a757742b393081be9c1a3201248299fffe7d00000001.
Definition q_modulus : Z := 0x5c5e464a35c12769bac2a757742b39311b849d0f1801860419fffe7d00000001.

(** A fully reduced representation. *)
Definition canonical (P : fparams) (a : limbs) : Prop :=
  wf_limbs a /\ val a < modulus P.

(** [represents P a v]: the limbs [a] are the (fully reduced) Montgomery
    representation of the integer [v] of [0, modulus). *)
Definition represents (P : fparams) (a : limbs) (v : Z) : Prop :=
  canonical P a /\ 0 <= v < modulus P /\ (v * 2 ^ 256) mod modulus P = val a.

(** Bytes. *)
Definition is_byte (b : Z) : Prop := 0 <= b < 256.
Fixpoint le_value (bs : list Z) : Z :=
  match bs with nil => 0 | b :: bs => b + 256 * le_value bs end.

(** The two exported field types. *)
Definition halo_field (P : fparams) : Prop := P = fp_params \/ P = fq_params.

(** Repeated multiplication modulo [m], for the statement of exponentiation. *)
Fixpoint mod_pow (m x : Z) (n : nat) : Z :=
  match n with O => 1 mod m | S n => (x * mod_pow m x n) mod m end.
