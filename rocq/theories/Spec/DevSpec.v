(** What dev::is_satisfied, determinism_check and constraint_count should report,
    in terms of an execution of the circuit (Spec/CircuitSpec.v). *)
From Coq Require Import String List Bool Arith.
From Verif Require Import Model.FieldTrait Model.Circuits Model.Dev Spec.CircuitSpec.
Import ListNotations.
Open Scope nat_scope.
Open Scope list_scope.

Section DevSpec.
  Context {F : Field}.

  Definition gates_hold (w : assignment F) (tr : list (event F)) : Prop :=
    forall a b c o, In (EvMul a b c o) tr -> fmul (w a) (w b) = w c.

  (** The verdict that an execution with trace [tr], result [r] and witness [w]
      deserves when the verifier supplies [inputs]. *)
  Definition verdict (w : assignment F) (tr : list (event F)) (r : res unit) (inputs : list F)
      (v : sat_result F) : Prop :=
    match v with
    | SatTrue => r = Ok tt /\ constraints_hold w tr /\ map w (input_vars tr) = inputs
    | SatErr (SynthesisErr e) => r = Err e
    | SatErr (InputLength got expected) =>
        r = Ok tt /\ got = length inputs /\ expected = length (input_vars tr) /\ got <> expected
    | SatErr (MultiplicationErr _ x y z) =>
        r = Ok tt /\ length inputs = length (input_vars tr) /\
        exists a b c o, In (EvMul a b c o) tr /\ x = w a /\ y = w b /\ z = w c /\ fmul x y <> z
    | SatErr (LinearErr _ lhs rhs) =>
        r = Ok tt /\ length inputs = length (input_vars tr) /\ gates_hold w tr /\ lhs <> rhs /\
        ((exists lc, In (EvLC lc) tr /\ lhs = lc_val w lc /\ rhs = fzero) \/
         (exists i x, nth_error (input_vars tr) i = Some x /\ lhs = w x /\
                      nth_error inputs i = Some rhs))
    end.

  (** A circuit that, when every closure is run, does not panic itself, uses no
      '/' in its annotations, closes only namespaces it opened, and mentions
      only variables it was given; new variables differ from the earlier ones. *)
  Fixpoint well_behaved {A} (vars : list Var) (depth : nat) (p : Prog F A) : Prop :=
    match p with
    | Ret _ => True
    | Panic => False
    | Alloc s v k | AllocInput s v k =>
        has_slash s = false /\
        match v with
        | Ok _ => forall x, ~ In x vars -> well_behaved (x :: vars) depth (k (Ok (x, true)))
        | Err e => well_behaved vars depth (k (Err e))
        end
    | EnforceZero lc k => Forall (fun t => In (fst t) vars) lc /\ well_behaved vars depth k
    | Multiply s v k =>
        has_slash s = false /\
        match v with
        | Ok _ => forall a b c, NoDup [a; b; c] -> ~ In a vars -> ~ In b vars -> ~ In c vars ->
            well_behaved (a :: b :: c :: vars) depth (k (Ok (a, b, c, true)))
        | Err e => well_behaved vars depth (k (Err e))
        end
    | PushNamespace _ k => well_behaved vars (S depth) k
    | PopNamespace k => exists d, depth = S d /\ well_behaved vars d k
    end.

  (** A program that, whatever the answers of the constraint system, uses no '/' in its
      annotations and the names of its namespaces and closes exactly the namespaces it
      opens; [open] of them are open. *)
  Fixpoint tidy {A} (open : nat) (p : Prog F A) : Prop :=
    match p with
    | Ret _ => open = 0
    | Panic => True
    | Alloc s _ k | AllocInput s _ k => has_slash s = false /\ forall r, tidy open (k r)
    | EnforceZero _ k => tidy open k
    | Multiply s _ k => has_slash s = false /\ forall r, tidy open (k r)
    | PushNamespace n k => has_slash n = false /\ tidy (S open) k
    | PopNamespace k => match open with 0 => False | S open => tidy open k end
    end.

  (** The operations a circuit issues when allocations are numbered
      [A(next), A(next+1), ...] and closures are run ([run = true]) or not. A
      failing closure aborts its call. *)
  Inductive op := OpAlloc | OpInput | OpMul | OpLC (lc : LC F).
  Definition cons_op {A} (o : op) (x : list op * option A) : list op * option A :=
    (o :: fst x, snd x).
  Fixpoint operations {A} (run : bool) (next : nat) (p : Prog F A) : list op * option A :=
    match p with
    | Ret a => ([], Some a)
    | Panic => ([], None)
    | Alloc _ v k =>
        match v, run with
        | Err e, true => operations run next (k (Err e))
        | _, _ => cons_op OpAlloc (operations run (S next) (k (Ok (VA next, run))))
        end
    | AllocInput _ v k =>
        match v, run with
        | Err e, true => operations run next (k (Err e))
        | _, _ => cons_op OpInput (operations run (S next) (k (Ok (VA next, run))))
        end
    | EnforceZero lc k => cons_op (OpLC lc) (operations run next k)
    | Multiply _ v k =>
        match v, run with
        | Err e, true => operations run next (k (Err e))
        | _, _ => cons_op OpMul (operations run (3 + next)
                   (k (Ok (VA next, VA (1 + next), VA (2 + next), run))))
        end
    | PushNamespace _ k | PopNamespace k => operations run next k
    end.

  (** Operations determinism_check cannot tell apart: linear combinations are
      compared term by term, variables by their index only. *)
  Definition index_of (x : Var) : nat := match x with VA i | VB i | VC i => i end.
  Definition same_op (o o' : op) : Prop :=
    match o, o' with
    | OpLC l, OpLC l' =>
        Forall2 (fun t t' => index_of (fst t) = index_of (fst t') /\ snd t = snd t') l l'
    | OpLC _, _ | _, OpLC _ => False
    | _, _ => o = o'
    end.

  (** The circuit without its namespaces. *)
  Fixpoint erase {A} (p : Prog F A) : Prog F A :=
    match p with
    | Ret a => Ret a
    | Panic => Panic
    | Alloc s v k => Alloc s v (fun r => erase (k r))
    | AllocInput s v k => AllocInput s v (fun r => erase (k r))
    | EnforceZero lc k => EnforceZero lc (erase k)
    | Multiply s v k => Multiply s v (fun r => erase (k r))
    | PushNamespace _ k | PopNamespace k => erase k
    end.

  (** Verdicts of is_satisfied up to the path reported. *)
  Definition same_verdict (a b : sat_result F) : Prop :=
    match a, b with
    | SatErr (MultiplicationErr _ x y z), SatErr (MultiplicationErr _ x' y' z') =>
        x = x' /\ y = y' /\ z = z'
    | SatErr (LinearErr _ x y), SatErr (LinearErr _ x' y') => x = x' /\ y = y'
    | _, _ => a = b
    end.

  (** Every way of answering the calls, the circuit closes exactly the namespaces
      it opens. *)
  Fixpoint balanced {A} (depth : nat) (p : Prog F A) : Prop :=
    match p with
    | Ret _ => depth = 0
    | Panic => True
    | Alloc _ _ k | AllocInput _ _ k => forall r, balanced depth (k r)
    | EnforceZero _ k => balanced depth k
    | Multiply _ _ k => forall r, balanced depth (k r)
    | PushNamespace _ k => balanced (S depth) k
    | PopNamespace k => exists d, depth = S d /\ balanced d k
    end.
End DevSpec.
Arguments op F : clear implicits.
