(** What the recursive verification circuit (src/recursion.rs) should check: bit
    strings as numbers, the deferred data as a bit string, and the checks on it up
    to the signs of square roots. *)
From Coq Require Import ZArith List Bool Arith.
From Verif Require Import Model.FieldTrait Model.Util Model.Proofs Spec.FieldLaws Spec.CurveSpec Spec.BoolSpec.
Import ListNotations.
Open Scope nat_scope. Open Scope list_scope.

(** [l] lists widths and field elements: the bits are the numbers of these widths,
    one after the other, least significant bit first, each congruent to the value
    of its field element modulo [p]. *)
Inductive numbers {F : Field} (p : Z) (v : F -> Z) : list (nat * F) -> list bool -> Prop :=
| numbers_nil : numbers p v [] []
| numbers_cons n x l b bs : length b = n -> v x = (bits_val b mod p)%Z -> numbers p v l bs ->
    numbers p v ((n, x) :: l) (b ++ bs).

Section DeferredBits.
  Context {F : Field}.
  (** The order and the widths of the parts of a deferred value. *)
  Definition deferred_layout (D : Deferred F) : list (nat * F) :=
    [(128, d_x D); (128, d_y_old D); (128, d_y_cur D); (128, d_y_new D);
     (256, d_ky_opening D); (256, d_tx_positive_opening D); (256, d_tx_negative_opening D);
     (256, d_sx_cur_opening D); (256, d_rx_opening D); (256, d_rxy_opening D)] ++
    map (pair 128) (d_challenges_sq_packed_old D) ++ [(256, d_gx_old_opening D)] ++
    map (pair 128) (d_challenges_sq_packed_new D) ++
    [(256, d_b_x D); (256, d_b_xy D); (256, d_b_y_old D); (256, d_b_y_cur D); (256, d_b_y_new D)].
  Definition encodes_deferred (p : Z) (v : F -> Z) (k : nat) (D : Deferred F) (bs : list bool) : Prop :=
    length (d_challenges_sq_packed_old D) = k /\ length (d_challenges_sq_packed_new D) = k /\
    numbers p v (deferred_layout D) bs.

  Definition sign (s : F) : Prop := s = fone \/ s = fneg fone.
  (** [D] with the claimed inner products multiplied by [s] (the old one) and [t]
      (the five new ones). *)
  Definition with_signs (s t : F) (D : Deferred F) : Deferred F :=
    mkDeferred (d_x D) (d_y_old D) (d_y_cur D) (d_y_new D) (d_ky_opening D) (d_tx_positive_opening D)
      (d_tx_negative_opening D) (d_sx_cur_opening D) (d_rx_opening D) (d_rxy_opening D)
      (d_challenges_sq_packed_old D) (fmul s (d_gx_old_opening D)) (d_challenges_sq_packed_new D)
      (fmul t (d_b_x D)) (fmul t (d_b_xy D)) (fmul t (d_b_y_old D)) (fmul t (d_b_y_cur D)) (fmul t (d_b_y_new D)).
End DeferredBits.

(** The lower 128 bits of two field elements agree; and an element below 2^128. *)
Definition same_low {F : Field} (x y : F) : Prop :=
  (le_val (f_to_bytes x) mod 2 ^ 128 = le_val (f_to_bytes y) mod 2 ^ 128)%Z.
Definition small {F : Field} (x : F) : Prop := (le_val (f_to_bytes x) < 2 ^ 128)%Z.
(** The parts of a deferred value that are written in full, and those of which
    only the lower half is written. *)
Definition full_parts {F : Field} (D : Deferred F) : list F :=
  [d_ky_opening D; d_tx_positive_opening D; d_tx_negative_opening D; d_sx_cur_opening D;
   d_rx_opening D; d_rxy_opening D; d_gx_old_opening D; d_b_x D; d_b_xy D; d_b_y_old D; d_b_y_cur D; d_b_y_new D].
Definition half_parts {F : Field} (D : Deferred F) : list F :=
  [d_x D; d_y_old D; d_y_cur D; d_y_new D] ++ d_challenges_sq_packed_old D ++ d_challenges_sq_packed_new D.

(** The bits of a challenge made from a 256-bit number [z]: its 127 lower bits, and 2^127. *)
Definition challenge_bits (z : Z) (bs : list bool) : Prop :=
  length bs = 128 /\ bits_val bs = (2 ^ 127 + z mod 2 ^ 127)%Z.
