(** C25-C28: the synthesis driver and the developer tools. A circuit is a tree of
    calls to the constraint system (Model/Circuits.v); [Exec] (Spec/CircuitSpec.v)
    is its execution against an arbitrary one, producing a trace of events. *)
From Coq Require Import String List Bool Arith ZArith.
From Verif Require Import Model.FieldTrait Model.FieldInst Model.Circuits Model.Synthesis Model.Dev Model.Num
  Spec.FieldSpec Spec.FieldLaws Spec.CircuitSpec Spec.ExprSpec Spec.DriverSpec Spec.DevSpec
  Proofs.DriverTop Proofs.IsSatP Proofs.IsSatProgressP Proofs.DeterminismP Proofs.NamespaceP
  Proofs.CountP Proofs.FpFq.
Import ListNotations.
Open Scope nat_scope.
Open Scope list_scope.

(** Any backend, any circuit: all variables handed out are distinct (and distinct
    from ONE), a gate's wires are the three wires of one gate, one backend gate
    per driver gate; without errors, gates and constraints are counted exactly
    and the backend sees exactly the constraints of the trace, in order, each
    public input (and ONE first) with one constraint, one unit coefficient and
    one tag carrying that constraint's number. [logged] only records calls. *)
Theorem C25_driver_accounting : forall (F : Field) (B : Backend F) (b : BState B) circuit s r,
  basic_synthesize B b circuit = Some (s, r) ->
  exists calls tr,
    basic_synthesize (logged B) (b, []) circuit
      = Some (@mkSynth F (logged B) (backend s, calls) (current_variable s) (sq s) (sn s), r) /\
    Exec (circuit (VA 1)) tr (Some r) /\
    NoDup (VA 1 :: trace_vars tr) /\ Forall gate_shaped tr /\
    length (filter is_gate_call calls) = sn s /\
    (Forall (fun ev => ~ failed ev) tr ->
       sn s = count_gates tr + (count_allocs tr + 2) / 2 /\
       sq s = S (length (trace_lcs tr)) /\
       filter about_lc calls = expected_calls 0 (EvInput (VA 1) (Some fone) :: tr)).
Proof. exact @driver_accounting. Qed.
Print Assumptions C25_driver_accounting.

(** With the backend that stores the witness: every wire handed out holds the
    value supplied for it and every gate that is not an explicit multiplication
    satisfies [a * b = c]. *)
Theorem C25_driver_witness : forall (F : Field) p v, FieldLaws F p v -> forall circuit st r,
  basic_synthesize (assignment_backend F) assignment0 circuit = Some (st, r) ->
  exists tr, Exec (circuit (VA 1)) tr (Some r) /\ NoDup (VA 1 :: trace_vars tr) /\
    let asg := backend st in let w := of_vectors (as_a asg) (as_b asg) (as_c asg) in
    length (as_a asg) = sn st /\ length (as_b asg) = sn st /\ length (as_c asg) = sn st /\
    Forall (in_vectors (as_a asg) (as_b asg) (as_c asg)) (VA 1 :: trace_vars tr) /\
    w (VA 1) = fone /\ witnessed w tr /\
    forall i, 1 <= i <= sn st -> fmul (w (VA i)) (w (VB i)) = w (VC i) \/
      exists o, In (EvMul (VA i) (VB i) (VC i) o) tr.
Proof. exact @driver_witness. Qed.
Print Assumptions C25_driver_witness.

(** The verdict of is_satisfied is the one the witness it recorded deserves. *)
Theorem C26_is_satisfied_exact : forall (F : Field) p v, FieldLaws F p v ->
  forall (circuit : Var -> CS F unit) (inputs : list F) (res : sat_result F),
  is_satisfied circuit inputs = Some res ->
  exists tr r w, Exec (circuit (VA 1)) tr (Some r) /\ NoDup (VA 1 :: trace_vars tr) /\
    witnessed w tr /\ w (VA 1) = fone /\ verdict w tr r inputs res.
Proof. exact @is_satisfied_spec. Qed.
Print Assumptions C26_is_satisfied_exact.

(** It always gives one on well-behaved circuits, and accepts honest ones. *)
Theorem C26_is_satisfied_total : forall (F : Field) p v, FieldLaws F p v ->
  forall (circuit : Var -> CS F unit) inputs,
  well_behaved [VA 1] 0 (circuit (VA 1)) -> exists res, is_satisfied circuit inputs = Some res.
Proof. exact @is_satisfied_progress. Qed.
Print Assumptions C26_is_satisfied_total.

Theorem C26_is_satisfied_honest : forall (F : Field) p v, FieldLaws F p v ->
  forall (circuit : Var -> CS F unit) inputs,
  well_behaved [VA 1] 0 (circuit (VA 1)) ->
  (forall w, w (VA 1) = fone -> complete w (circuit (VA 1)) (fun _ => True)) ->
  (forall tr w, Exec (circuit (VA 1)) tr (Some (Ok tt)) -> witnessed w tr ->
     map w (input_vars tr) = inputs) ->
  is_satisfied circuit inputs = Some SatTrue.
Proof. exact @is_satisfied_honest. Qed.
Print Assumptions C26_is_satisfied_honest.

(** A circuit: x public, y = x * x, inside a namespace. *)
Definition square_circuit (x : Fp) (y : Fp) (one : Var) : CS Fp unit :=
  bind (alloc_input "x" (Ok x)) (fun xv =>
  namespace "sq" (bind (multiply "mul" (Ok (x, x, y))) (fun '(a, b, c, _) =>
    bind (enforce_zero (lc_sub_v (lc_from (fst xv)) a)) (fun _ =>
    enforce_zero (lc_sub_v (lc_from (fst xv)) b))))).
Definition fp3 : Fp := fadd fone (fadd fone fone).
Definition fp9 : Fp := fmul fp3 fp3.
(** What the verdicts are, as data without field elements. *)
Definition shown (v : option (sat_result Fp)) : list nat :=
  match v with
  | None => [0] | Some SatTrue => [1]
  | Some (SatErr (SynthesisErr _)) => [2] | Some (SatErr (InputLength g e)) => [3; g; e]
  | Some (SatErr (MultiplicationErr _ a b c)) =>
      [4; if feqb a fp3 then 3 else 9; if feqb b fp3 then 3 else 9; if feqb c fp3 then 3 else 9]
  | Some (SatErr (LinearErr _ a b)) => [5; if feqb a fp3 then 3 else 9; if feqb b fp3 then 3 else 9]
  end.
Example C26_verdicts :
  shown (is_satisfied (square_circuit fp3 fp9) [fp3]) = [1] /\
  shown (is_satisfied (square_circuit fp3 fp3) [fp3]) = [4; 3; 3; 3] /\
  shown (is_satisfied (square_circuit fp3 fp9) [fp9]) = [5; 3; 9] /\
  shown (is_satisfied (square_circuit fp3 fp9) []) = [3; 0; 1].
Proof. vm_compute. auto. Qed.
Example C26_well_behaved : well_behaved [VA 1] 0 (square_circuit fp3 fp9 (VA 1)).
Proof.
  cbn. split; [reflexivity|]. intros x _. split; [reflexivity|]. intros a b c _ _ _ _.
  split; [repeat (apply Forall_cons || apply Forall_nil); cbn; auto 10|]. split; [repeat (apply Forall_cons || apply Forall_nil); cbn; auto 10|]. exists 0. auto.
Qed.
Example C25_nonvacuous :
  option_map (fun '(s, r) => (sn s, sq s))
    (basic_synthesize (assignment_backend Fp) assignment0 (square_circuit fp3 fp9)) = Some (2, 4).
Proof. vm_compute. reflexivity. Qed.

(** determinism_check: accepts exactly when the run without witness and the run
    with witness both succeed and every operation of the latter matches the
    former's at the same place (linear combinations up to the kind of variable). *)
Theorem C27_determinism_check_exact : forall (F : Field) p v, FieldLaws F p v ->
  forall (circuit : Var -> CS F unit),
  let first := operations false 1 (circuit (VA 0)) in
  let second := operations true 1 (circuit (VA 0)) in
  determinism_check circuit = Some (Ok tt) <->
  snd first = Some (Ok tt) /\ snd second = Some (Ok tt) /\
  exists same rest, fst first = same ++ rest /\ Forall2 same_op same (fst second).
Proof. exact @determinism_spec. Qed.
Print Assumptions C27_determinism_check_exact.

(** It does not notice that the run with witness stopped early: a circuit that
    allocates again only when its closure was not run is accepted. *)
Definition stops_early (one : Var) : CS Fp unit :=
  bind (alloc "x" (Ok fp3)) (fun '(_, v) =>
  match v with Some _ => ret tt | None => bind (alloc "y" (Ok fp3)) (fun _ => ret tt) end).
Theorem C27_same_sequence_refuted : exists circuit : Var -> CS Fp unit,
  determinism_check circuit = Some (Ok tt) /\
  length (fst (operations false 1 (circuit (VA 0)))) <> length (fst (operations true 1 (circuit (VA 0)))).
Proof. exists stops_early. split; [reflexivity|]. vm_compute. discriminate. Qed.
Print Assumptions C27_same_sequence_refuted.
Example C27_accepts : determinism_check (square_circuit fp3 fp9) = Some (Ok tt).
Proof. reflexivity. Qed.
Example C27_rejects : determinism_check (fun one : Var => bind (alloc "x" (Ok fp3)) (fun '(x, v) =>
  enforce_zero (match v with Some _ => lc_from x | None => lc_sub_v lc_zero x end))) = None.
Proof. reflexivity. Qed.

(** Namespaces: erasing them changes neither executions, nor the verdict of
    is_satisfied (up to the path in an error), nor determinism_check. *)
Theorem C28_namespaces_transparent : forall (F : Field) (circuit : Var -> CS F unit),
  (forall one tr r, Exec (circuit one) tr r <-> Exec (erase (circuit one)) tr r) /\
  (forall inputs v, is_satisfied circuit inputs = Some v ->
     exists v', is_satisfied (fun one => erase (circuit one)) inputs = Some v' /\ same_verdict v v') /\
  determinism_check (fun one => erase (circuit one)) = determinism_check circuit.
Proof.
  intros F circuit. split; [intros; apply exec_erase|]. split; [apply is_satisfied_erase|apply determinism_erase].
Qed.
Print Assumptions C28_namespaces_transparent.

(** constraint_count: the root entry counts everything; a namespace's entry
    counts exactly what ran inside it (nested namespaces included) and is what it
    adds to the enclosing one. *)
Theorem C28_total_counts : forall (F : Field) (circuit : Var -> CS F unit) m,
  (forall one, balanced 0 (circuit one)) -> constraint_count circuit = Some (Ok m) ->
  exists tr, Exec (circuit (VA 1)) tr (Some (Ok tt)) /\
    Forall (fun ev => match ev with
      | EvAlloc _ None | EvInput _ None | EvMul _ _ _ None | EvLC _ => True | _ => False end) tr /\
    find_count "" m = Some (mkCounts (count_allocs tr + 1) (count_gates tr)
      (count_gates tr + (count_allocs tr + 2) / 2) (length (trace_lcs tr) + 1)).
Proof. exact @constraint_count_total. Qed.
Print Assumptions C28_total_counts.

Theorem C28_namespace_counts : forall (F : Field) (A : Type) name (m : CS F A) st st' r,
  balanced 0 m -> syn_run (count_backend F) (namespace name m) st = Some (st', r) ->
  exists tr, Exec m tr (Some r) /\
    let added := mkCounts (count_allocs tr) (count_gates tr) (sn st' - sn st) (length (trace_lcs tr)) in
    find_count (join_path (cs_namespace (backend st) ++ [name])) (cs_counts (backend st')) = Some added /\
    cs_current (backend st') = counts_add (cs_current (backend st)) added /\
    cs_namespace (backend st') = cs_namespace (backend st) /\
    cs_stack (backend st') = cs_stack (backend st).
Proof. exact @namespace_count. Qed.
Print Assumptions C28_namespace_counts.

Lemma square_balanced x y one : balanced 0 (square_circuit x y one).
Proof. cbn. intros [[z b]|e]; cbn; [|reflexivity]. intros [[[[a b'] c] d]|e]; cbn; exists 0; auto. Qed.
Example C28_nonvacuous :
  (forall one, balanced 0 (square_circuit fp3 fp9 one)) /\
  match constraint_count (square_circuit fp3 fp9) with
  | Some (Ok m) => (find_count "sq" m, find_count "" m) = (Some (mkCounts 0 1 1 2), Some (mkCounts 2 1 2 4))
  | _ => False
  end.
Proof.
  split.
  - intro one. apply square_balanced.
  - vm_compute. reflexivity.
Qed.
