(** src/synthesis.rs: the [Basic] synthesis driver over an arbitrary backend. *)
From Coq Require Import String List Bool Arith.
From Verif Require Import Model.FieldTrait Model.Circuits.
Import ListNotations.
Open Scope string_scope.

(** [Backend]: synthesis.rs:8-84.  Methods are state transformers; [None] is a
    panic.  [b_set_var] receives the result its closure would produce and says
    whether it ran it.  [get_for_q] is never called and is left out, as is the
    [gadget_name] argument of [pop_namespace], which is [None] unless the
    [gadget-traces] feature is on. *)
Record Backend (F : Field) := {
  BState : Type;
  BIndex : Type;                               (* LinearConstraintIndex *)
  b_get_var : BState -> Var -> option (option F);
  b_set_var : BState -> option string -> Var -> res F -> option (BState * bool * res unit);
  b_new_multiplication_gate : BState -> option string -> option BState;
  b_new_linear_constraint : BState -> string -> option (BState * BIndex);
  b_insert_coefficient : BState -> Var -> Coeff F -> BIndex -> option BState;
  b_new_k_power : BState -> nat -> option F -> option (BState * res unit);
  b_push_namespace : BState -> string -> option BState;
  b_pop_namespace : BState -> option BState
}.
Arguments BState {F} _. Arguments BIndex {F} _.
Arguments b_get_var {F} _ _ _. Arguments b_set_var {F} _ _ _ _ _.
Arguments b_new_multiplication_gate {F} _ _ _.
Arguments b_new_linear_constraint {F} _ _ _.
Arguments b_insert_coefficient {F} _ _ _ _ _.
Arguments b_new_k_power {F} _ _ _ _.
Arguments b_push_namespace {F} _ _ _. Arguments b_pop_namespace {F} _ _.

(** The trait's default methods: [get_var] (synthesis.rs:12-14) answers [None],
    [set_var] (22-34) does not run its closure, the others do nothing. *)
Definition default_get_var {F : Field} {S} (_ : S) (_ : Var) : option (option F) := Some None.
Definition default_set_var {F : Field} {S} (s : S) (_ : option string) (_ : Var) (_ : res F)
  : option (S * bool * res unit) := Some (s, false, Ok tt).
Definition default_new_multiplication_gate {S} (s : S) (_ : option string) : option S := Some s.
Definition default_insert_coefficient {F : Field} {S I} (s : S) (_ : Var) (_ : Coeff F) (_ : I)
  : option S := Some s.
Definition default_new_k_power {F : Field} {S} (s : S) (_ : nat) (_ : option F)
  : option (S * res unit) := Some (s, Ok tt).
Definition default_push_namespace {S} (s : S) (_ : string) : option S := Some s.
Definition default_pop_namespace {S} (s : S) : option S := Some s.

Section Driver.
  Context {F : Field} (B : Backend F).

  (** [Synthesizer]: synthesis.rs:99-105 *)
  Record Synth := mkSynth {
    backend : BState B;
    current_variable : option nat;
    sq : nat;
    sn : nat
  }.

  (** [const ONE]: synthesis.rs:110 *)
  Definition basic_ONE : Var := VA 1.

  (** [alloc]: synthesis.rs:112-164.  Result: the new state and the outcome; the
      boolean says whether the caller's value closure was run. *)
  Definition syn_alloc (s : Synth) (annotation : string) (value : res F)
    : option (Synth * res (Var * bool)) :=
    match current_variable s with
    | Some index =>
        let s := mkSynth (backend s) None (sq s) (sn s) in      (* take() *)
        obind (b_get_var B (backend s) (VA index)) (fun value_a =>
        let closure :=
          rbind value (fun value_b =>
          rbind (ok_or_missing value_a) (fun _ => Ok value_b)) in
        obind (b_set_var B (backend s) (Some annotation) (VB index) closure)
          (fun '(b, called, r) =>
        let s := mkSynth b None (sq s) (sn s) in
        match r with
        | Err e => Some (s, Err e)
        | Ok _ =>
            let product :=
              if called then
                match value, value_a with
                | Ok vb, Some va => Some (fmul va vb)
                | _, _ => None
                end
              else None in
            obind (b_set_var B b None (VC index) (ok_or_missing product))
              (fun '(b, _, r) =>
            let s := mkSynth b None (sq s) (sn s) in
            match r with
            | Err e => Some (s, Err e)
            | Ok _ => Some (s, Ok (VB index, called))
            end)
        end))
    | None =>
        let index := S (sn s) in
        obind (b_new_multiplication_gate B (backend s) None) (fun b =>
        obind (b_set_var B b (Some annotation) (VA index) value) (fun '(b, called, r) =>
        match r with
        | Err e => Some (mkSynth b None (sq s) index, Err e)
        | Ok _ => Some (mkSynth b (Some index) (sq s) index, Ok (VA index, called))
        end))
    end.

  (** the insertion loop of [enforce_zero]: synthesis.rs:190-192 *)
  Fixpoint insert_all (b : BState B) (lc : LC F) (y : BIndex B) : option (BState B) :=
    match lc with
    | [] => Some b
    | (var, coeff) :: lc =>
        obind (b_insert_coefficient B b var coeff y) (fun b => insert_all b lc y)
    end.

  (** [enforce_zero]: synthesis.rs:185-193 *)
  Definition syn_enforce_zero (s : Synth) (lc : LC F) : option Synth :=
    obind (b_new_linear_constraint B (backend s) "TODO_LINEAR") (fun '(b, y) =>
    obind (insert_all b lc y) (fun b =>
    Some (mkSynth b (current_variable s) (S (sq s)) (sn s)))).

  (** [alloc_input]: synthesis.rs:166-183.  The caller's closure always runs. *)
  Definition syn_alloc_input (s : Synth) (annotation : string) (value : res F)
    : option (Synth * res (Var * bool)) :=
    obind (syn_alloc s annotation value) (fun '(s, r) =>
    match r with
    | Err e => Some (s, Err e)
    | Ok (input_var, _) =>
        obind (syn_enforce_zero s (lc_add_v lc_zero input_var)) (fun s =>
        obind (b_new_k_power B (backend s) (sq s) (ok value)) (fun '(b, r) =>
        let s := mkSynth b (current_variable s) (sq s) (sn s) in
        match r with
        | Err e => Some (s, Err e)
        | Ok _ => Some (s, Ok (input_var, true))
        end))
    end).

  (** [multiply]: synthesis.rs:195-234 *)
  Definition syn_multiply (s : Synth) (annotation : string) (values : res (F * F * F))
    : option (Synth * res (Var * Var * Var * bool)) :=
    let index := S (sn s) in
    obind (b_new_multiplication_gate B (backend s) (Some annotation)) (fun b =>
    let st b := mkSynth b (current_variable s) (sq s) index in
    obind (b_set_var B b None (VA index) (rbind values (fun '(a, _, _) => Ok a)))
      (fun '(b, called, r) =>
    match r with
    | Err e => Some (st b, Err e)
    | Ok _ =>
        let vals := stored called values in
        let b_val := option_map (fun '(_, b, _) => b) vals in
        let c_val := option_map (fun '(_, _, c) => c) vals in
        obind (b_set_var B b None (VB index) (ok_or_missing b_val)) (fun '(b, _, r) =>
        match r with
        | Err e => Some (st b, Err e)
        | Ok _ =>
            obind (b_set_var B b None (VC index) (ok_or_missing c_val)) (fun '(b, _, r) =>
            match r with
            | Err e => Some (st b, Err e)
            | Ok _ => Some (st b, Ok (VA index, VB index, VC index, called))
            end)
        end)
    end)).

  (** A circuit running against the driver: [circuit.synthesize(&mut tmp)]. *)
  Fixpoint syn_run {A} (p : Prog F A) (s : Synth) : option (Synth * A) :=
    match p with
    | Ret a => Some (s, a)
    | Panic => None
    | Alloc ann v k => obind (syn_alloc s ann v) (fun '(s, r) => syn_run (k r) s)
    | AllocInput ann v k => obind (syn_alloc_input s ann v) (fun '(s, r) => syn_run (k r) s)
    | EnforceZero lc k => obind (syn_enforce_zero s lc) (fun s => syn_run k s)
    | Multiply ann v k => obind (syn_multiply s ann v) (fun '(s, r) => syn_run (k r) s)
    | PushNamespace name k =>
        obind (b_push_namespace B (backend s) name) (fun b =>
        syn_run k (mkSynth b (current_variable s) (sq s) (sn s)))
    | PopNamespace k =>
        obind (b_pop_namespace B (backend s)) (fun b =>
        syn_run k (mkSynth b (current_variable s) (sq s) (sn s)))
    end.

  (** [Basic::synthesize]: synthesis.rs:95-276.  The circuit receives [CS::ONE].
      Returns the final driver state and [circuit.synthesize]'s result. *)
  Definition basic_synthesize (b : BState B) (circuit : Var -> CS F unit)
    : option (Synth * res unit) :=
    let tmp := mkSynth b None 0 0 in
    obind (syn_alloc_input tmp "one" (Ok fone)) (fun '(tmp, r) =>
    match r with
    | Ok (VA 1, _) => syn_run (circuit basic_ONE) tmp
    | _ => None                                   (* expect / panic! *)
    end).
End Driver.
Arguments backend {F B} _. Arguments current_variable {F B} _.
Arguments sq {F B} _. Arguments sn {F B} _.
Arguments mkSynth {F B} _ _ _ _.
