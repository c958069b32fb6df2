(** The two concrete implementations of the [Field] trait (fp.rs:402-557,
    fq.rs:402-557) as values of the record [Field].

    Rust keeps the limbs of an element private and every constructor leaves them
    fully reduced; the carrier [FE P] is therefore the set of reduced limb
    quadruples.  Each operation calls the limb function of Model/FieldLimbs.v
    and re-enters the carrier with [inj]; that the re-entry never changes
    anything (the limb functions do return reduced limbs) is proved in
    Proofs/FieldInstP.v, not assumed. *)
From Coq Require Import ZArith List Bool.
From Verif Require Import Model.FieldLimbs.
Open Scope Z_scope.

Definition u64b (x : Z) : bool := (0 <=? x) && (x <? w64).
Definition limbs_ltb (a b : limbs) : bool :=
  if l3 a =? l3 b then
    if l2 a =? l2 b then
      if l1 a =? l1 b then l0 a <? l0 b else l1 a <? l1 b
    else l2 a <? l2 b
  else l3 a <? l3 b.
(** Fully reduced: four u64 words, less than the modulus. *)
Definition canonicalb (P : fparams) (a : limbs) : bool :=
  u64b (l0 a) && u64b (l1 a) && u64b (l2 a) && u64b (l3 a) && limbs_ltb a (MODULUS P).

Section Inst.
  Variable P : fparams.
  Hypothesis Z0 : canonicalb P fe_zero = true.

  Definition FE : Type := { a : limbs | canonicalb P a = true }.
  Definition proj (a : FE) : limbs := proj1_sig a.
  Definition inj (a : limbs) : FE :=
    match bool_dec (canonicalb P a) true with
    | left H => exist _ a H
    | right _ => exist _ fe_zero Z0
    end.

  (** The operators: fp.rs:17-255, 281-400 *)
  Definition FEops : FieldOps := {|
    FT := FE;
    fzero := inj fe_zero;
    fone := inj (fe_one P);
    fadd := fun a b => inj (fe_add P (proj a) (proj b));
    fsub := fun a b => inj (fe_sub P (proj a) (proj b));
    fmul := fun a b => inj (fe_mul P (proj a) (proj b));
    fneg := fun a => inj (fe_neg P (proj a));
    fsquare := fun a => inj (fe_square P (proj a));
    feqb := fun a b => fe_ct_eq (proj a) (proj b) |}.

  (** The trait implementation: fp.rs:402-557 *)
  Definition FEfield : Field := {|
    fops := FEops;
    f_S := TWO_ADICITY;
    f_ALPHA := inj (ROOT_OF_UNITY P);
    f_RESCUE_ALPHA := cRESCUE_ALPHA;
    f_RESCUE_INVALPHA := cRESCUE_INVALPHA P;
    f_BETA := inj (fe_BETA P);
    f_from_bool := fun b => inj (fe_from_bool P b);
    f_from_u64 := fun x => inj (fe_from_u64 P x);
    f_from_u128 := fun x => inj (fe_from_u128 P x);
    f_sqrt := fun a => option_map inj (fe_sqrt P (proj a));
    f_invert := fun a => option_map inj (fe_invert P (proj a));
    f_to_bytes := fun a => fe_to_bytes P (proj a);
    f_from_bytes := fun bs => option_map inj (fe_from_bytes P bs);
    f_get_lower_128 := fun a => fe_get_lower_128 P (proj a) |}.

  (** The integer an element stands for: what [to_bytes] prints (fp.rs:538-550). *)
  Definition FEval (a : FE) : Z := read_le (fe_to_bytes P (proj a)).
End Inst.

(** [Fp] (src/fields/fp.rs) and [Fq] (src/fields/fq.rs). *)
Definition Fp : Field := FEfield fp_params eq_refl.
Definition Fq : Field := FEfield fq_params eq_refl.
Definition Fp_val : Fp -> Z := FEval fp_params.
Definition Fq_val : Fq -> Z := FEval fq_params.
