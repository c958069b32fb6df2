(** What bits and booleans denote under an assignment. *)
From Coq Require Import List ZArith Bool.
From Verif Require Import Model.FieldTrait Model.Circuits Model.Boolean Spec.CircuitSpec.
Import ListNotations.

Section BoolSpec.
  Context {F : Field}.
  Implicit Types (w : assignment F).

  (** A wire carrying the bit [x] is assigned 1 or 0. *)
  Definition of_bit (x : bool) : F := if x then fone else fzero.
  Definition bit_is w (b : AllocatedBit) (x : bool) : Prop := w (bit_var b) = of_bit x.
  Definition bool_is w (b : Boolean) (x : bool) : Prop :=
    match b with
    | Is b => bit_is w b x
    | Not b => bit_is w b (negb x)
    | Constant c => c = x
    end.
  (** ... and the prover's value hint agrees. *)
  Definition bit_has w (b : AllocatedBit) (x : bool) : Prop := bit_is w b x /\ bit_value b = Some x.
  Definition bool_has w (b : Boolean) (x : bool) : Prop := bool_is w b x /\ bool_value b = Some x.

  (** The number whose bits, least significant first, are [bs]. *)
  Fixpoint bits_val (bs : list bool) : Z :=
    match bs with [] => 0 | b :: bs => Z.b2z b + 2 * bits_val bs end.
End BoolSpec.

(** The choice and majority functions of FIPS 180-4, 4.1.2. *)
Definition Ch (x y z : bool) : bool := if x then y else z.
Definition Maj (x y z : bool) : bool := (x && y) || (x && z) || (y && z).
