(** What the synthesis driver should do with the calls of a circuit, in terms of
    the trace of an execution (Spec/CircuitSpec.v), and a backend wrapper that
    logs the calls the driver makes to any backend. *)
From Coq Require Import String List Bool Arith.
From Verif Require Import Model.FieldTrait Model.Circuits Model.Synthesis Spec.CircuitSpec.
Import ListNotations.
Open Scope nat_scope.
Open Scope list_scope.

Section DriverSpec.
  Context {F : Field}.

  (** The variables handed out during an execution. *)
  Definition event_vars (ev : event F) : list Var :=
    match ev with
    | EvAlloc x _ | EvInput x _ => [x]
    | EvMul a b c _ => [a; b; c]
    | _ => []
    end.
  Definition trace_vars (tr : list (event F)) : list Var := flat_map event_vars tr.

  Definition var_index (x : Var) : nat := match x with VA i | VB i | VC i => i end.

  (** The three wires of a gate are [A(i)], [B(i)] and [C(i)] for one [i]. *)
  Definition gate_shaped (ev : event F) : Prop :=
    match ev with EvMul a b c _ => exists i, a = VA i /\ b = VB i /\ c = VC i | _ => True end.

  (** Calls that returned an error. *)
  Definition failed (ev : event F) : Prop :=
    match ev with EvErr _ | EvFail _ => True | _ => False end.

  (** Single-wire allocations and explicit gates. *)
  Fixpoint count_allocs (tr : list (event F)) : nat :=
    match tr with
    | [] => 0
    | EvAlloc _ _ :: tr | EvInput _ _ :: tr => S (count_allocs tr)
    | _ :: tr => count_allocs tr
    end.
  Fixpoint count_gates (tr : list (event F)) : nat :=
    match tr with
    | [] => 0 | EvMul _ _ _ _ :: tr => S (count_gates tr) | _ :: tr => count_gates tr
    end.

  (** The linear constraints a trace stands for, in order: one per [enforce_zero]
      and one, [x], per public input. *)
  Fixpoint trace_lcs (tr : list (event F)) : list (LC F) :=
    match tr with
    | [] => []
    | EvLC lc :: tr => lc :: trace_lcs tr
    | EvInput x _ :: tr => [(x, COne)] :: trace_lcs tr
    | _ :: tr => trace_lcs tr
    end.
  (** The (1-based) numbers of the public input constraints, when [n] constraints
      came before. *)
  Fixpoint input_positions (n : nat) (tr : list (event F)) : list nat :=
    match tr with
    | [] => []
    | EvLC _ :: tr => input_positions (S n) tr
    | EvInput _ _ :: tr => S n :: input_positions (S n) tr
    | _ :: tr => input_positions n tr
    end.
  (** The recorded values of the public inputs. *)
  Fixpoint input_values (tr : list (event F)) : list (option F) :=
    match tr with
    | [] => [] | EvInput _ v :: tr => v :: input_values tr | _ :: tr => input_values tr
    end.

  (** Logged calls to a backend. *)
  Inductive call :=
  | CallSet (x : Var) | CallGate | CallNewLC | CallInsert (x : Var) (c : Coeff F)
  | CallKPower (index : nat) (v : option F).

  Definition logged (B : Backend F) : Backend F := {|
    BState := BState B * list call; BIndex := BIndex B;
    b_get_var := fun s x => b_get_var B (fst s) x;
    b_set_var := fun s ann x v =>
      obind (b_set_var B (fst s) ann x v) (fun '(b, called, r) =>
      Some ((b, snd s ++ [CallSet x]), called, r));
    b_new_multiplication_gate := fun s ann =>
      obind (b_new_multiplication_gate B (fst s) ann) (fun b => Some (b, snd s ++ [CallGate]));
    b_new_linear_constraint := fun s ann =>
      obind (b_new_linear_constraint B (fst s) ann) (fun '(b, y) =>
      Some ((b, snd s ++ [CallNewLC]), y));
    b_insert_coefficient := fun s x c y =>
      obind (b_insert_coefficient B (fst s) x c y) (fun b =>
      Some (b, snd s ++ [CallInsert x c]));
    b_new_k_power := fun s i v =>
      obind (b_new_k_power B (fst s) i v) (fun '(b, r) =>
      Some ((b, snd s ++ [CallKPower i v]), r));
    b_push_namespace := fun s n => obind (b_push_namespace B (fst s) n) (fun b => Some (b, snd s));
    b_pop_namespace := fun s => obind (b_pop_namespace B (fst s)) (fun b => Some (b, snd s)) |}.

  (** The calls concerning linear constraints that a trace should cause. *)
  Definition about_lc (c : call) : bool :=
    match c with CallNewLC | CallInsert _ _ | CallKPower _ _ => true | _ => false end.
  Definition is_gate_call (c : call) : bool := match c with CallGate => true | _ => false end.
  Definition insert_calls (lc : LC F) : list call := map (fun s => CallInsert (fst s) (snd s)) lc.
  Fixpoint expected_calls (n : nat) (tr : list (event F)) : list call :=
    match tr with
    | [] => []
    | EvLC lc :: tr => CallNewLC :: insert_calls lc ++ expected_calls (S n) tr
    | EvInput x v :: tr =>
        CallNewLC :: CallInsert x COne :: CallKPower (S n) v :: expected_calls (S n) tr
    | _ :: tr => expected_calls n tr
    end.
End DriverSpec.
Arguments call F : clear implicits.
