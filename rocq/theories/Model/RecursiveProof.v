(** src/recursion.rs:8-212: proofs that carry earlier proofs.

    The two curves E1 and E2 have each other's base field as scalar field; in the
    model this is a pair of equations between the fields ([Cycle]). *)
From Coq Require Import String List Bool Arith ZArith.
From Verif Require Import Model.FieldTrait Model.Circuits Model.Num Model.Boolean Model.Curve Model.Threads
  Model.Util Model.Rescue Model.RescueGadget Model.Ecc Model.Params Model.Opening Model.Proofs Model.Recursion.
Import ListNotations.
Open Scope list_scope.
Open Scope nat_scope.
Open Scope out_scope.
Notation length := List.length.

(** [E1: Curve<Base = E2::Scalar>, E2: Curve<Base = E1::Scalar>]: recursion.rs:17-21 *)
Record Cycle (E1 E2 : Curve) := mkCycle {
  cyc_base2 : Base E2 = Scalar E1;
  cyc_base1 : Base E1 = Scalar E2 }.
Arguments cyc_base2 {E1 E2} _. Arguments cyc_base1 {E1 E2} _.
Definition swap {E1 E2} (cy : Cycle E1 E2) : Cycle E2 E1 := mkCycle E2 E1 (cyc_base1 cy) (cyc_base2 cy).

(** the same thing over an equal field *)
Definition cast {P : Field -> Type} {F G : Field} (H : F = G) (x : P F) : P G := eq_rect F P x G H.

(** [CS: RecursiveCircuit<E1::Scalar> + RecursiveCircuit<E2::Scalar>]: recursion.rs:22 *)
Record BothCircuits (E1 E2 : Curve) := mkBoth {
  on_scalar1 : RecursiveCircuit (Scalar E1);
  on_scalar2 : RecursiveCircuit (Scalar E2) }.
Arguments on_scalar1 {E1 E2} _. Arguments on_scalar2 {E1 E2} _.
Definition swap_circuits {E1 E2} (c : BothCircuits E1 E2) : BothCircuits E2 E1 :=
  mkBoth E2 E1 (on_scalar2 c) (on_scalar1 c).

(** [RecursiveProof]: recursion.rs:8-15 *)
Record RecursiveProof (E1 E2 : Curve) := mkRP {
  rp_proof : Proof_ E1; rp_oldproof1 : Leftovers E1; rp_oldproof2 : Leftovers E2;
  rp_deferred : Deferred (Scalar E2); rp_payload : list Z }.
Arguments mkRP {E1 E2} _ _ _ _ _.
Arguments rp_proof {E1 E2} _. Arguments rp_oldproof1 {E1 E2} _. Arguments rp_oldproof2 {E1 E2} _.
Arguments rp_deferred {E1 E2} _. Arguments rp_payload {E1 E2} _.

Section RecursiveProof.
  Context {E1 E2 : Curve}.
  Variable cy : Cycle E1 E2.
  Variable M : Machine.

  (** what a [VerificationCircuit<E1, E2>] uses of a [RecursiveProof<E2, E1>] *)
  Definition as_old_proof (p : RecursiveProof E2 E1) : OldProof E2 :=
    mkOld (rp_proof p) (rp_oldproof1 p) (cast (P := Deferred) (eq_sym (cyc_base2 cy)) (rp_deferred p)) (rp_payload p).
  (** a [VerificationCircuit<E1, E2>] as a circuit over E1::Scalar *)
  Definition as_circuit (vc : VerificationCircuit E2) : Var -> CS (Scalar E1) unit :=
    cast (P := fun F => Var -> CS F unit) (cyc_base2 cy) (fun one => vc_synthesize one vc).
  Definition inner_for (c : RecursiveCircuit (Scalar E1)) : RecursiveCircuit (Base E2) :=
    cast (P := RecursiveCircuit) (eq_sym (cyc_base2 cy)) c.

  (** the circuit as the verifier builds it: recursion.rs:93-104, 172-183 *)
  Definition blank_circuit (c : RecursiveCircuit (Scalar E1)) (params : Params E2) (payload : list Z) : VerificationCircuit E2 :=
    mkVC params None (inner_for c) None payload None None None None.

  (** the loop over the input bits: recursion.rs:135-151 *)
  Fixpoint bit_inputs (k_commitment : E1) (gens : list E1) (bits : list bool) : option (E1 * list (Scalar E1)) :=
    match bits with
    | [] => Some (k_commitment, [])
    | b :: bits =>
        obind (if b then option_map (c_add k_commitment) (hd_error gens) else Some k_commitment) (fun k_commitment =>
        obind (bit_inputs k_commitment (tl gens) bits) (fun '(k_commitment, rest) =>
        Some (k_commitment, (if b then fone else fzero) :: rest)))
    end.
End RecursiveProof.

(** [verify_inner]: recursion.rs:76-164 *)
Definition verify_inner {E1 E2 : Curve} (cy : Cycle E1 E2) (M : Machine) (self : RecursiveProof E1 E2)
    (e1params : Params E1) (e2params : Params E2) (circuit : BothCircuits E1 E2)
  : outcome (res (bool * Deferred (Scalar E1) * Leftovers E1 * Leftovers E2 * list nat)) :=
  let circuit1 := as_circuit cy (blank_circuit cy (on_scalar1 circuit) e2params (rp_payload self)) in
  let circuit2 := as_circuit (swap cy) (blank_circuit (swap cy) (on_scalar2 circuit) e1params (rp_payload self)) in
  let inputs := rp_payload self ++ leftovers_to_bytes (rp_oldproof1 self) ++
                leftovers_to_bytes (rp_oldproof2 self) ++ deferred_to_bytes (rp_deferred self) in
  k_commitment <~ out_opt (nth_error (p_generators e1params) 1) ;;
  gens <~ out_opt (slice_from (p_generators e1params) 2) ;;
  '(k_commitment, bitinputs) <~ out_opt (bit_inputs k_commitment gens (bytes_bits inputs)) ;;
  '(worked, leftovers, deferred, forkvalues) <~? proof_verify M (rp_proof self) (rp_oldproof1 self) e1params
      circuit1 bitinputs (Some k_commitment) ;;
  worked2 <~? leftovers_verify M (rp_oldproof2 self) e2params circuit2 ;;
  Done (Ok (worked && worked2, deferred, leftovers, rp_oldproof2 self, forkvalues)).

(** [create_proof]: recursion.rs:22-74 *)
Definition create_proof {E1 E2 : Curve} (cy : Cycle E1 E2) (M : Machine) (fuel : nat)
    (e1params : Params E1) (e2params : Params E2) (old_proof : option (RecursiveProof E2 E1))
    (circuit : BothCircuits E1 E2) (new_payload : list Z) : outcome (res (RecursiveProof E1 E2)) :=
  '(newdeferred, new_leftovers, old_leftovers, forkvalues) <~?
    match old_proof with
    | Some old_proof =>
        '(_, newdeferred, l1, l2, forkvalues) <~? verify_inner (swap cy) M old_proof e2params e1params (swap_circuits circuit) ;;
        Done (Ok (newdeferred, l1, l2, forkvalues))
    | None =>
        newdeferred <~ out_opt (deferred_dummy (p_k e2params)) ;;
        l1 <~ out_opt (leftovers_dummy M e2params) ;;
        l2 <~ out_opt (leftovers_dummy M e1params) ;;
        Done (Ok (newdeferred, l1, l2, repeat 0 (p_k e2params)))
    end ;;
  let vc := mkVC e2params (Some (match old_proof with Some _ => false | None => true end))
              (inner_for cy (on_scalar1 circuit)) (option_map (as_old_proof cy) old_proof) new_payload
              (Some forkvalues) (Some (leftovers_to_bytes old_leftovers)) (Some new_leftovers) (Some newdeferred) in
  '(proof, _) <~? proof_new M fuel e1params (as_circuit cy vc) old_leftovers ;;
  Done (Ok (mkRP proof old_leftovers new_leftovers newdeferred new_payload)).

(** [verify]: recursion.rs:166-212 *)
Definition verify {E1 E2 : Curve} (cy : Cycle E1 E2) (M : Machine) (self : RecursiveProof E1 E2)
    (e1params : Params E1) (e2params : Params E2) (circuit : BothCircuits E1 E2) : outcome (res bool) :=
  let circuit1 := as_circuit cy (blank_circuit cy (on_scalar1 circuit) e2params (rp_payload self)) in
  let circuit2 := as_circuit (swap cy) (blank_circuit (swap cy) (on_scalar2 circuit) e1params (rp_payload self)) in
  '(worked, deferred, a, b, _) <~? verify_inner cy M self e1params e2params circuit ;;
  w1 <~ out_opt (deferred_verify (rp_deferred self) (p_k e2params)) ;;
  w2 <~ out_opt (deferred_verify deferred (p_k e1params)) ;;
  w3 <~? leftovers_verify M a e1params circuit1 ;;
  w4 <~? leftovers_verify M b e2params circuit2 ;;
  Done (Ok (worked && w1 && w2 && w3 && w4)).

(** the two curves of the crate: lib.rs / curves.rs *)
Definition cycle01 : Cycle Ec0 Ec1 := mkCycle Ec0 Ec1 eq_refl eq_refl.
Definition cycle10 : Cycle Ec1 Ec0 := mkCycle Ec1 Ec0 eq_refl eq_refl.
