(** What 32- and 64-bit words denote, and the word operations of FIPS 180-4. *)
From Coq Require Import List ZArith Bool.
From Verif Require Import Model.FieldTrait Model.Circuits Model.Boolean Model.UInt Spec.CircuitSpec
  Spec.BoolSpec.
Import ListNotations.
Open Scope Z_scope.

(** The [n] low bits of [z], least significant first. *)
Definition bits_of (n : nat) (z : Z) : list bool :=
  map (fun i => Z.testbit z (Z.of_nat i)) (seq 0 n).
Definition in_word (n : nat) (z : Z) : Prop := 0 <= z < 2 ^ Z.of_nat n.

(** The [n] bits of a word carry the number [z] ... *)
Definition word_is {F} (w : assignment F) (n : nat) (u : UInt) (z : Z) : Prop :=
  in_word n z /\ Forall2 (bool_is w) (u_bits u) (bits_of n z).
(** ... and all hints say so. *)
Definition word_has {F} (w : assignment F) (n : nat) (u : UInt) (z : Z) : Prop :=
  in_word n z /\ Forall2 (bool_has w) (u_bits u) (bits_of n z) /\ u_value u = Some z.

(** The value hint of a word, if any, agrees with the word's constant bits. *)
Definition consistent (b : Boolean) (x : bool) : Prop :=
  match b with Constant c => c = x | _ => True end.
Definition hints_agree (n : nat) (u : UInt) : Prop :=
  forall z, u_value u = Some z -> in_word n z /\ Forall2 consistent (u_bits u) (bits_of n z).

(** FIPS 180-4, sections 2.2.2 and 4.1.2, on integers in [0, 2^32). *)
Definition ROTR (n x : Z) : Z := x / 2 ^ n + (x mod 2 ^ n) * 2 ^ (32 - n).
Definition SHR (n x : Z) : Z := x / 2 ^ n.
Definition NOT (x : Z) : Z := 2 ^ 32 - 1 - x.
Definition CH (x y z : Z) : Z := Z.lxor (Z.land x y) (Z.land (NOT x) z).
Definition MAJ (x y z : Z) : Z := Z.lxor (Z.lxor (Z.land x y) (Z.land x z)) (Z.land y z).
Definition ADD (xs : list Z) : Z := fold_right Z.add 0 xs mod 2 ^ 32.

(** A word carrying [z], honestly built or not: its bits are [z] and its hint,
    whatever it is, does not contradict its constant bits.  Every operation
    below produces such words. *)
Definition word_ok {F} (w : assignment F) (n : nat) (u : UInt) (z : Z) : Prop :=
  word_is w n u z /\ hints_agree n u.
