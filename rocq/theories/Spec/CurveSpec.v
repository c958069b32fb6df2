(** The chord-and-tangent group of a curve y^2 = x^3 + b, independently of the
    code: points are pairs of coordinates, or [None] for the point at infinity. *)
From Coq Require Import List ZArith.
From Verif Require Spec.FieldSpec.
From Verif Require Import Model.FieldTrait Model.Curve Spec.FieldLaws.
Import ListNotations.

Section Group.
  Context {F : Field}.
  Definition point : Type := option (F * F).
  Definition infinity : point := None.
  Definition on_curve (b : F) (A : point) : Prop :=
    match A with
    | None => True
    | Some (x, y) => fmul y y = fadd (fmul (fmul x x) x) b
    end.
  Definition opposite (A : point) : point :=
    match A with None => None | Some (x, y) => Some (x, fneg y) end.

  (** The point opposite to the third intersection of the curve with the line of
      slope [l] through (x1, y1), where x2 is the abscissa of the second
      intersection. *)
  Definition third (l x1 y1 x2 : F) : point :=
    let x3 := fsub (fsub (fmul l l) x1) x2 in
    Some (x3, fsub (fmul l (fsub x1 x3)) y1).

  Inductive sum_of : point -> point -> point -> Prop :=
  | sum_infinity_l B : sum_of None B B
  | sum_infinity_r A : sum_of A None A
  | sum_opposite x y : sum_of (Some (x, y)) (Some (x, fneg y)) None
  | sum_chord x1 y1 x2 y2 l : x1 <> x2 -> fmul l (fsub x2 x1) = fsub y2 y1 ->
      sum_of (Some (x1, y1)) (Some (x2, y2)) (third l x1 y1 x2)
  | sum_tangent x y l : y <> fzero ->
      fmul l (fadd y y) = fadd (fadd (fmul x x) (fmul x x)) (fmul x x) ->
      sum_of (Some (x, y)) (Some (x, y)) (third l x y x).

  (** [multiple A n B]: [B] is the [n]-fold sum of [A]. *)
  Inductive multiple (A : point) : nat -> point -> Prop :=
  | multiple_0 : multiple A 0 None
  | multiple_S n B C : multiple A n B -> sum_of A B C -> multiple A (S n) C.
End Group.
Arguments point F : clear implicits.

Section Code.
  Variable C : Curve.
  Notation F := (Base C).
  (** A value of the code's type stands for a point, in projective coordinates. *)
  Definition represents (P : C) (A : point F) : Prop :=
    let '(X, Y, Z) := c_get_xyz P in
    match A with
    | None => X = fzero /\ Y <> fzero /\ Z = fzero
    | Some (x, y) => Z <> fzero /\ X = fmul x Z /\ Y = fmul y Z /\ on_curve (c_b C) A
    end.
  Definition valid (P : C) : Prop := exists A, represents P A.
End Code.
Arguments represents {C} _ _. Arguments valid {C} _.

(** Two values that stand for the same point. *)
Definition same_point {C : Curve} (P Q : C) : Prop := exists A, represents P A /\ represents Q A.
(** A scalar as a number: the value of its canonical little-endian encoding. *)
Definition scalar_nat {C : Curve} (s : Scalar C) : nat := Z.to_nat (le_val (f_to_bytes s)).

(** The two curves of the library and the orders their scalar fields promise. *)
Inductive halo_curve : Curve -> Z -> Prop :=
| halo_ec0 : halo_curve Ec0 FieldSpec.p_modulus
| halo_ec1 : halo_curve Ec1 FieldSpec.q_modulus.
