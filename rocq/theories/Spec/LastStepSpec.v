(** What it means that the circuit of an application accepts a step from one payload to
    another, whoever chooses the values of the wires. *)
From Coq Require Import String List Bool.
From Verif Require Import Model.FieldTrait Model.Circuits Model.Boolean Model.Recursion
  Spec.CircuitSpec Spec.BoolSpec.
Import ListNotations.

(** Some values of the wires satisfy all constraints of the application's circuit, when
    the wires of the old and the new payload hold these bits.  (As in the verifier's run,
    the circuit knows the new payload.) *)
Definition accepts_step {F : Field} (application : RecursiveCircuit F) (old_bits new_bits : list bool) : Prop :=
  exists (w : assignment F) one old new tr,
    w one = fone /\ Forall2 (bit_is w) old old_bits /\ Forall2 (bit_has w) new new_bits /\
    Exec (inner_synthesize application one old new) tr (Some (Ok tt)) /\ constraints_hold w tr.
