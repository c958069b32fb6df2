(** The coefficients that a commitment binds. *)
From Coq Require Import List Arith.
From Verif Require Import Model.FieldTrait Model.Curve Model.Params Model.Opening Spec.UtilSpec Spec.ProofSpec Spec.VerifySpec Spec.RecursiveCircuitSpec Spec.ExtractSpec.
Import ListNotations.
Open Scope list_scope.

Section Binding.
  Context {F : Field}.
  (** A coefficient for each of [n] generators: the vector starts at the first of them,
      or ends at the last. *)
  Definition placed (n : nat) (right_edge : bool) (v : list F) : list F :=
    if right_edge then repeat fzero (n - length v) ++ v else v ++ repeat fzero (n - length v).
  Definition difference (v w : list F) : list F := map (fun '(x, y) => fsub x y) (combine v w).
  (** s v + t w *)
  Definition mixture (s t : F) (v w : list F) : list F := map (fun '(x, y) => fadd (fmul s x) (fmul t y)) (combine v w).
End Binding.
(** The prover convinces a verifier of one claim, for four challenges in each round (C71). *)
Definition convinces {C : Curve} (generators : list C) (k : nat) (claim : PolynomialOpening C) (p : prover C) : Prop :=
  four_ways p /\
  forall pf packed, run p pf packed -> well_formed 1 k pf /\ folds_to generators packed (mo_g pf) /\
    forall a, nth_error (mo_a pf) 0 = Some a -> claim_holds (mo_g pf) (mo_rounds pf) packed 0 claim a.
