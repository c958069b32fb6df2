(** Histories of recursive proofs: which calls of [RecursiveProof::create_proof] are
    expected to succeed, one after the other, on alternating curves. *)
From Coq Require Import ZArith List Bool Arith.
From Verif Require Import Model.FieldTrait Model.Circuits Model.Boolean Model.Curve Model.Threads Model.Util Model.Params Model.Opening Model.Proofs Model.Recursion Model.RecursiveProof
  Spec.FieldLaws Spec.CircuitSpec Spec.BoolSpec Spec.CurveSpec Spec.UtilSpec Spec.SystemSpec Spec.ProofSpec Spec.RecursiveCircuitSpec Spec.UniformSpec.
Import ListNotations.
Open Scope nat_scope. Open Scope list_scope.

(** The application's circuit accepts the step between payloads with these bits: with
    any variables that carry the bits it runs, and the constraints hold. *)
Definition accepts {F : Field} (c : RecursiveCircuit F) (old new : list bool) : Prop :=
  forall (w : assignment F) one, w one = fone -> forall ob nb, Forall2 (bit_has w) ob old -> Forall2 (bit_has w) nb new ->
  complete w (inner_synthesize c one ob nb) (fun _ => True).
(** No addition of the commitment to these input bits is exceptional. *)
Definition regular {C : Curve} (P : Params C) (bits : list bool) : Prop := exists B, bits_commitment P bits B.
(** The public inputs of a recursive proof *)
Definition proof_bits {E1 E2 : Curve} (p : RecursiveProof E1 E2) : list bool :=
  flat_map byte_bits (rp_payload p ++ leftovers_to_bytes (rp_oldproof1 p) ++ leftovers_to_bytes (rp_oldproof2 p) ++ deferred_to_bytes (rp_deferred p)).

(** New payloads: of [len] bytes, and not refused by the application's circuit *)
Definition payload_ok (len : nat) (ok : list bool -> Prop) (payload : list Z) : Prop :=
  length payload = len /\ ok (flat_map byte_bits payload).

Section Ready.
  Context {E1 E2 : Curve} (cy : Cycle E1 E2).
  (** The circuit of the proofs on E1 (which verifies proofs on E2), without values as
      its verifier builds it *)
  Definition step_circuit (P2 : Params E2) (c : BothCircuits E1 E2) (payload : list Z) : Var -> CS (Scalar E1) unit :=
    as_circuit cy (blank_circuit cy (on_scalar1 c) P2 payload).
  (** The parameters are those of [Params::new] (C53); the application's circuit is
      uniform and its first payload has [len] bytes; and the circuit fits. *)
  Record half_ready (P1 : Params E1) (P2 : Params E2) (c : BothCircuits E1 E2) (len : nat) (ok : list bool -> Prop) : Prop := {
    hr_params : good_params P1;
    hr_affine : Forall2 (fun G xy => represents G (Some xy)) (p_generators P1) (p_generators_xy P1);
    hr_start : starts_well P1;
    hr_uniform : uniform ok (on_scalar1 c);
    hr_base : length (base_payload (on_scalar1 c)) = 8 * len;
    hr_fits : exists payload t, payload_ok len ok payload /\ laid_out false (step_circuit P2 c payload) t /\ l_gates t < p_n P1 /\ length (l_lcs t) < p_d P1 }.
End Ready.
(** Both directions, with parameters of the same size *)
Definition ready {E1 E2 : Curve} (cy : Cycle E1 E2) (P1 : Params E1) (P2 : Params E2) (c : BothCircuits E1 E2) (len : nat) (ok : list bool -> Prop) : Prop :=
  p_k P1 = p_k P2 /\ half_ready cy P1 P2 c len ok /\ half_ready (swap cy) P2 P1 (swap_circuits c) len ok.

(** A first proof: the application accepts the step from its initial payload, and the
    additions for the empty old proof (zeros for its leftovers, the leftovers [L] of E1
    and the deferred data [OD] that the program starts from) are regular. *)
Definition can_start {E1 E2 : Curve} (M : Machine) (P1 : Params E1) (P2 : Params E2) (c : BothCircuits E1 E2) (len : nat) (ok : list bool -> Prop) (payload : list Z) : Prop :=
  payload_ok len ok payload /\ accepts (on_scalar1 c) (base_payload (on_scalar1 c)) (flat_map byte_bits payload) /\
  forall L (OD : Deferred (Base E2)), leftovers_dummy M P1 = Some L -> deferred_dummy (p_k P2) = Some OD ->
    regular P2 (base_payload (on_scalar1 c) ++ repeat false (8 * (144 + 16 * p_k P2)) ++
                flat_map byte_bits (leftovers_to_bytes L) ++ flat_map byte_bits (deferred_to_bytes OD)).
(** A further proof *)
Definition can_continue {E1 E2 : Curve} (P2 : Params E2) (c : BothCircuits E1 E2) (len : nat) (ok : list bool -> Prop) (old : RecursiveProof E2 E1) (payload : list Z) : Prop :=
  payload_ok len ok payload /\ accepts (on_scalar1 c) (flat_map byte_bits (rp_payload old)) (flat_map byte_bits payload) /\
  regular P2 (proof_bits old).

(** The proofs that are made in this way, each from the one before it, on any machines. *)
Inductive history (len : nat) (ok : list bool -> Prop) : forall E1 E2 : Curve, Cycle E1 E2 -> Params E1 -> Params E2 -> BothCircuits E1 E2 -> RecursiveProof E1 E2 -> Prop :=
| history_first E1 E2 (cy : Cycle E1 E2) P1 P2 c M fuel payload p : machine_ok M -> fuel <= 256 ->
    can_start M P1 P2 c len ok payload -> create_proof cy M fuel P1 P2 None c payload = Done (Ok p) ->
    history len ok E1 E2 cy P1 P2 c p
| history_next E1 E2 (cy : Cycle E1 E2) P1 P2 c M fuel old payload p : machine_ok M -> fuel <= 256 ->
    history len ok E2 E1 (swap cy) P2 P1 (swap_circuits c) old ->
    can_continue P2 c len ok old payload -> create_proof cy M fuel P1 P2 (Some old) c payload = Done (Ok p) ->
    history len ok E1 E2 cy P1 P2 c p.
