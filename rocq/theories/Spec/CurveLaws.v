(** What it means for an implementation of the [Curve] trait to be a group of
    prime order r on y^2 = x^3 + b: the interface the layers above rely on.
    [vb] and [vs] read the two fields' elements as integers. *)
From Coq Require Import ZArith List.
From Verif Require Import Lib.AbGroup Model.FieldTrait Model.Curve Spec.FieldLaws Spec.CurveSpec.
Open Scope Z_scope.

Record CurveLaws (C : Curve) (q : Z) (vb : Base C -> Z) (r : Z) (vs : Scalar C -> Z) := {
  cl_base : FieldLaws (Base C) q vb;
  cl_scalar : FieldLaws (Scalar C) r vs;
  (* the curve *)
  cl_no_root : forall u : Base C, fadd (fmul (fmul u u) u) (c_b C) <> fzero;
  cl_b_nonsquare : forall y : Base C, fmul y y <> c_b C;
  (* its points are a group under [sum_of] *)
  cl_group : AbGroup;
  cl_point : cl_group -> point (Base C);
  cl_inj : forall g h, cl_point g = cl_point h -> g = h;
  cl_on : forall g, on_curve (c_b C) (cl_point g);
  cl_onto : forall A, on_curve (c_b C) A -> exists g, cl_point g = A;
  cl_infinity : cl_point g0 = infinity;
  cl_sum : forall g h A, sum_of (cl_point g) (cl_point h) A <-> A = cl_point (gp g h);
  cl_opposite : forall g, cl_point (gn g) = opposite (cl_point g);
  (* of order r, generated by [one] *)
  cl_gen : cl_group;
  cl_cyclic : forall g, exists k, 0 <= k < r /\ g = zmul k cl_gen;
  cl_order : forall g : cl_group, zmul r g = g0;
  cl_gen_nonzero : cl_gen <> g0;
  (* the functions *)
  cl_rep_zero : represents (c_zero : C) infinity;
  cl_rep_one : represents (c_one : C) (cl_point cl_gen);
  cl_rep_add : forall (P Q : C) g h, represents P (cl_point g) -> represents Q (cl_point h) ->
    represents (c_add P Q) (cl_point (gp g h));
  cl_rep_sub : forall (P Q : C) g h, represents P (cl_point g) -> represents Q (cl_point h) ->
    represents (c_sub P Q) (cl_point (gp g (gn h)));
  cl_rep_neg : forall (P : C) g, represents P (cl_point g) -> represents (c_neg P) (cl_point (gn g));
  cl_rep_double : forall (P : C) g, represents P (cl_point g) -> represents (c_double P) (cl_point (gp g g));
  cl_rep_mul : forall (P : C) s g, represents P (cl_point g) -> represents (c_mul P s) (cl_point (zmul (vs s) g));
  cl_select : forall (P Q : C) c, c_select P Q c = if c then Q else P;
  cl_is_zero : forall (P : C) A, represents P A -> (c_is_zero P = true <-> A = infinity);
  cl_eqb : forall (P Q : C) A B, represents P A -> represents Q B ->
    (c_eqb P Q = true <-> A = infinity \/ A = B);
  cl_get_xy : forall (P : C) A, represents P A -> c_get_xy P = A;
  cl_from_xy : forall x y (P : C), c_from_xy x y = Some P <->
    (on_curve (c_b C) (Some (x, y)) /\ P = c_from_xy_unchecked x y) \/ (x = fzero /\ y = fzero /\ P = c_zero);
  cl_from_xy_unchecked : forall x y, on_curve (c_b C) (Some (x, y)) ->
    represents (c_from_xy_unchecked x y : C) (Some (x, y));
  cl_on_curve : forall P A, represents P A -> @c_is_on_curve C P = true;
  cl_on_curve_valid : forall P : C, snd (c_get_xyz P) <> fzero -> c_is_on_curve P = true -> valid P;
  cl_decode_encode : forall (P : C) A, represents P A ->
    exists Q : C, c_from_bytes (c_to_bytes P) = Some Q /\ represents Q A;
  cl_encode_shape : forall (P : C) A, represents P A -> length (c_to_bytes P) = 32%nat /\ Forall byte (c_to_bytes P);
  cl_encode_decode : forall bs (Q : C), length bs = 32%nat -> Forall byte bs -> c_from_bytes bs = Some Q ->
    valid Q /\ c_to_bytes Q = bs;
  (* the endomorphism *)
  cl_beta_base : fmul (fmul (BETA_BASE C) (BETA_BASE C)) (BETA_BASE C) = fone;
  cl_endo : forall g x y, cl_point g = Some (x, y) ->
    cl_point (zmul (vs (BETA_SCALAR C)) g) = Some (fmul (BETA_BASE C) x, y)
}.
