(** Circuits whose system does not depend on their values: what it means that two
    circuits make the same calls to the constraint system. *)
From Coq Require Import ZArith String List Bool Arith.
From Verif Require Import Model.FieldTrait Model.Circuits Model.Boolean Model.Curve Model.Util Model.Params Model.Opening Model.Proofs Model.Recursion
  Spec.CurveSpec Spec.UtilSpec Spec.RecursiveCircuitSpec.
Import ListNotations.
Open Scope nat_scope. Open Scope list_scope.
Local Notation length := List.length.

Section Uniform.
  Context {F : Field}.
  (** [inp]: public inputs may be allocated; [V]: the variables that may be used *)
  Variables (inp : Prop) (V : Var -> Prop).

  (** It stops with an error, without further calls. *)
  Inductive fails {A} : CS F A -> Prop :=
  | fails_err e : fails (Ret (Err e))
  | fails_push s k : fails k -> fails (PushNamespace s k)
  | fails_pop k : fails k -> fails (PopNamespace k).

  (** [alike R p q]: unless [p] fails or panics, [q] makes the same calls as [p], with
      the same variables and the same linear combinations but possibly with other
      values, and the results are related by [R].  If a call is answered with an error,
      [p] stops.  Here [q] is run by a constraint system that runs the closures of
      public inputs but not those of wires and gates, [p] by any. *)
  Inductive alike {A B} (R : A -> B -> Prop) : CS F A -> CS F B -> Prop :=
  | al_ret a b : R a b -> alike R (Ret (Ok a)) (Ret (Ok b))
  | al_fails p q : fails p -> alike R p q
  | al_panic q : alike R Panic q
  | al_alloc s v k s' v' k' :
      (forall e, fails (k (Err e))) -> (forall x c, V x -> alike R (k (Ok (x, c))) (k' (Ok (x, false)))) ->
      alike R (Alloc s v k) (Alloc s' v' k')
  | al_input s v k s' v' k' : inp ->
      (forall e, fails (k (Err e))) -> (forall x c, V x -> alike R (k (Ok (x, c))) (k' (Ok (x, true)))) ->
      alike R (AllocInput s v k) (AllocInput s' v' k')
  | al_lc lc k k' : Forall (fun t => V (fst t)) lc -> alike R k k' -> alike R (EnforceZero lc k) (EnforceZero lc k')
  | al_mul s v k s' v' k' :
      (forall e, fails (k (Err e))) ->
      (forall x y z c, V x -> V y -> V z -> alike R (k (Ok (x, y, z, c))) (k' (Ok (x, y, z, false)))) ->
      alike R (Multiply s v k) (Multiply s' v' k')
  | al_push s s' k k' : alike R k k' -> alike R (PushNamespace s k) (PushNamespace s' k')
  | al_pop k k' : alike R k k' -> alike R (PopNamespace k) (PopNamespace k').

  (** The same bit of the circuit, possibly with another value *)
  Definition same_bit (b b' : AllocatedBit) : Prop := bit_var b = bit_var b' /\ V (bit_var b).
End Uniform.

(** The application's circuit makes the same calls whatever the values of the bits of
    its two payloads are, uses only variables it has been given, and has no public
    inputs of its own.  More exactly: if it does not fail with some hints for them, then
    it makes the same calls without hints for the old payload and with those of any new
    payload that is [ok] - as the verifier's circuit is run. *)
Definition uniform {F : Field} (ok : list bool -> Prop) (c : RecursiveCircuit F) : Prop :=
  forall (V : Var -> Prop) one old new old' new' bits, V one ->
  Forall2 (same_bit V) old old' -> Forall2 (same_bit V) new new' ->
  Forall (fun b => bit_value b = None) old' -> map bit_value new' = map Some bits -> ok bits ->
  alike False V (fun _ _ => True) (inner_synthesize c one old new) (inner_synthesize c one old' new').

(** No new payload is excluded. *)
Definition any_bits (_ : list bool) : Prop := True.

Section Shape.
  Context {C : Curve}.
  (** The data a recursive circuit is built from has the right lengths, and the points
      of the old proof, if there is one, are curve points.  Without data (as the
      verifier builds the circuit) there is nothing to ask for. *)
  Record shaped (vc : VerificationCircuit C) : Prop := {
    sh_proof : forall p, vc_proof vc = Some p ->
      8 * length (op_payload p) = length (base_payload (vc_inner vc)) /\
      proof_of_points (p_k (vc_params vc)) (op_proof p) (op_oldproof1 p) /\
      length (challenges_sq_packed_new (op_oldproof1 p)) = p_k (vc_params vc) /\
      length (d_challenges_sq_packed_old (op_deferred p)) = p_k (vc_params vc) /\
      length (d_challenges_sq_packed_new (op_deferred p)) = p_k (vc_params vc);
    sh_forks : forall fs, vc_forkvalues vc = Some fs -> p_k (vc_params vc) <= length fs;
    sh_old : forall lb, vc_old_leftovers vc = Some lb -> length lb = 144 + 16 * p_k (vc_params vc);
    sh_new : forall L, vc_new_leftovers vc = Some L -> length (challenges_sq_packed_new L) = p_k (vc_params vc);
    sh_deferred : forall D, vc_deferred vc = Some D ->
      length (d_challenges_sq_packed_old D) = p_k (vc_params vc) /\ length (d_challenges_sq_packed_new D) = p_k (vc_params vc) }.
  (** The second and the third generator are not opposite (the circuit adds them). *)
  Definition starts_well (P : Params C) : Prop :=
    exists first second gens, p_generators_xy P = first :: second :: gens /\
      forall third, hd_error gens = Some third -> ~ sum_of (Some second) (Some third) infinity.
  (** The bits of the circuit's public inputs, in order: the payload, the leftovers of
      the two curves and the deferred data. *)
  Definition public_bits (vc : VerificationCircuit C) (lb : list Z) (L : Leftovers C) (D : Deferred (Scalar C)) : list bool :=
    flat_map byte_bits (vc_new_payload vc ++ lb ++ leftovers_to_bytes L ++ deferred_to_bytes D).
End Shape.
