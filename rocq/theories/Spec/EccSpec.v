(** What a curve point in a circuit denotes, and a way to run a circuit that
    exhibits satisfying assignments. *)
From Coq Require Import List ZArith String.
From Verif Require Import Model.FieldTrait Model.Circuits Model.Num Model.Boolean Model.Curve Model.Ecc
  Spec.CircuitSpec Spec.NumSpec Spec.BoolSpec Spec.CurveSpec.
Import ListNotations.

Section Denotes.
  Context {C : Curve}.
  Notation F := (Base C).
  (** Affine coordinates, (0, 0) standing for the point at infinity. *)
  Definition abscissa (A : point F) : F := match A with Some (x, _) => x | None => fzero end.
  Definition ordinate (A : point F) : F := match A with Some (_, y) => y | None => fzero end.
  Definition at_infinity (A : point F) : bool := match A with Some _ => false | None => true end.

  (** Under the assignment [w], the three parts of [P] are those of [A], a point
      of the curve. *)
  Definition cp_is (w : assignment F) (P : CurvePoint C) (A : point F) : Prop :=
    on_curve (c_b C) A /\
    n_val w (cp_x P) = abscissa A /\ n_val w (cp_y P) = ordinate A /\ bool_is w (cp_id P) (at_infinity A).
  (** ... and the values the prover carries along agree. *)
  Definition cp_has (w : assignment F) (P : CurvePoint C) (A : point F) : Prop :=
    cp_is w P A /\
    n_ok w (cp_x P) /\ n_ok w (cp_y P) /\ bool_value (cp_id P) = Some (at_infinity A).

  Definition finite (A : point F) : Prop := A <> infinity.
End Denotes.

(** Running a circuit against a constraint system that runs no closure and hands
    out distinct variables: the [n]th call gets the [n]th gate or its first wire.
    Errors of the constraint system itself do not occur. *)
Fixpoint fresh_run {F : Field} {A} (n : nat) (p : Prog F A) : list (event F) * option A :=
  match p with
  | Ret a => ([], Some a)
  | Panic => ([], None)
  | Alloc _ _ k =>
      let '(tr, r) := fresh_run (S n) (k (Ok (VA n, false))) in (EvAlloc (VA n) None :: tr, r)
  | AllocInput _ _ k =>
      let '(tr, r) := fresh_run (S n) (k (Ok (VA n, false))) in (EvInput (VA n) None :: tr, r)
  | EnforceZero lc k => let '(tr, r) := fresh_run n k in (EvLC lc :: tr, r)
  | Multiply _ _ k =>
      let '(tr, r) := fresh_run (S n) (k (Ok (VA n, VB n, VC n, false))) in
      (EvMul (VA n) (VB n) (VC n) None :: tr, r)
  | PushNamespace _ k => fresh_run n k
  | PopNamespace k => fresh_run n k
  end.

(** [w] satisfies the circuit so run, which returns [Q]. *)
Definition satisfiable_with {F : Field} {A} (n : nat) (w : assignment F) (m : CS F A) (Q : A -> Prop) : Prop :=
  exists a, snd (fresh_run n m) = Some (Ok a) /\ constraints_hold w (fst (fresh_run n m)) /\ Q a.
