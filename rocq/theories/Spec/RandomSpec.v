(** What [Params::new] gets from its source of randomness: 32 bytes at a time. *)
From Coq Require Import ZArith List.
From Verif Require Import Spec.FieldLaws.

Definition random (bs : list Z) : Prop := length bs = 32%nat /\ Forall byte bs.
