(** Runs of the recursion on the crate's two cycles of curves: parameters, and the
    assumptions that exclude rare exceptional cases. *)
From Coq Require Import ZArith List Bool Arith.
From Verif Require Import Model.FieldTrait Model.Circuits Model.Boolean Model.Curve Model.Threads Model.Util Model.Params Model.Opening Model.Proofs Model.Recursion Model.RecursiveProof
  Spec.CurveSpec Spec.BoolSpec Spec.UtilSpec Spec.SystemSpec Spec.ProofSpec Spec.RecursiveCircuitSpec Spec.UniformSpec Spec.ChainSpec.
Import ListNotations.
Open Scope nat_scope. Open Scope list_scope.

(** The two cycles of curves of the crate *)
Inductive halo_cycle : forall E1 E2, Cycle E1 E2 -> Prop :=
| halo_01 : halo_cycle Ec0 Ec1 cycle01
| halo_10 : halo_cycle Ec1 Ec0 cycle10.

(** Parameters as [Params::new] makes them (C53) *)
Definition made_params {C : Curve} (P : Params C) : Prop :=
  good_params P /\ Forall2 (fun G xy => represents G (Some xy)) (p_generators P) (p_generators_xy P).
(** No addition of the circuit's commitment to the input bits is exceptional: at the
    start, and for every proof that is made with the payload of the program. *)
Definition starts_regularly {E1 E2 : Curve} (M : Machine) (P1 : Params E1) (P2 : Params E2) (c : BothCircuits E1 E2) : Prop :=
  forall L (OD : Deferred (Base E2)), leftovers_dummy M P1 = Some L -> deferred_dummy (p_k P2) = Some OD ->
    regular P2 (base_payload (on_scalar1 c) ++ repeat false (8 * (144 + 16 * p_k P2)) ++
                flat_map byte_bits (leftovers_to_bytes L) ++ flat_map byte_bits (deferred_to_bytes OD)).
Definition goes_on_regularly {E1 E2 : Curve} (cy : Cycle E1 E2) (P1 : Params E1) (P2 : Params E2) (c : BothCircuits E1 E2) (len : nat) (ok : list bool -> Prop) : Prop :=
  forall p, history len ok E1 E2 cy P1 P2 c p -> regular P1 (proof_bits p).
Definition no_challenge_found (fuel : nat) : Prop :=
  (exists t, reached t /\ no_challenge (C := Ec0) fuel t) \/ (exists t, reached t /\ no_challenge (C := Ec1) fuel t).

