(** What a circuit means, independently of any driver: the executions of a
    circuit against an arbitrary constraint system, the assignments satisfying
    what such an execution emitted, and soundness/completeness of a gadget. *)
From Coq Require Import String List Bool.
From Verif Require Import Model.FieldTrait Model.Circuits.
Import ListNotations.

Section Spec.
  Context {F : Field}.

  (** An assignment gives every wire a field element. *)
  Definition assignment := Var -> F.

  (** The mathematical value of a coefficient and of a linear combination. *)
  Definition coeff_val (c : Coeff F) : F :=
    match c with CZero => fzero | COne => fone | CNegOne => fneg fone | CFull x => x end.
  Fixpoint lc_val (w : assignment) (lc : LC F) : F :=
    match lc with
    | [] => fzero
    | (x, c) :: lc => fadd (fmul (coeff_val c) (w x)) (lc_val w lc)
    end.

  (** What a constraint system sees: allocations, inputs and gates with the
      variables it handed out and, if it ran the closure, the values; linear
      constraints; errors of closures it ran; and failures of its own. *)
  Inductive event :=
  | EvAlloc (x : Var) (v : option F)
  | EvInput (x : Var) (v : option F)
  | EvMul (a b c : Var) (v : option (F * F * F))
  | EvLC (lc : LC F)
  | EvErr (e : SynthesisError)
  | EvFail (e : SynthesisError).

  (** [Exec p tr r]: running [p] against some constraint system can produce the
      trace [tr] and the result [r] ([None]: the circuit panicked).  The
      constraint system chooses the variables and whether to run closures; an
      error of a closure it runs is returned to the circuit. *)
  Inductive Exec {A} : Prog F A -> list event -> option A -> Prop :=
  | ExRet a : Exec (Ret a) [] (Some a)
  | ExPanic : Exec Panic [] None
  | ExAlloc_skip s v k x b tr r :
      Exec (k (Ok (x, b))) tr r -> Exec (Alloc s v k) (EvAlloc x None :: tr) r
  | ExAlloc_run s f k x tr r :
      Exec (k (Ok (x, true))) tr r -> Exec (Alloc s (Ok f) k) (EvAlloc x (Some f) :: tr) r
  | ExAlloc_err s e k tr r :
      Exec (k (Err e)) tr r -> Exec (Alloc s (Err e) k) (EvErr e :: tr) r
  | ExAlloc_fail s v e k tr r :
      Exec (k (Err e)) tr r -> Exec (Alloc s v k) (EvFail e :: tr) r
  | ExInput_skip s v k x b tr r :
      Exec (k (Ok (x, b))) tr r -> Exec (AllocInput s v k) (EvInput x None :: tr) r
  | ExInput_run s f k x tr r :
      Exec (k (Ok (x, true))) tr r -> Exec (AllocInput s (Ok f) k) (EvInput x (Some f) :: tr) r
  | ExInput_err s e k tr r :
      Exec (k (Err e)) tr r -> Exec (AllocInput s (Err e) k) (EvErr e :: tr) r
  | ExInput_fail s v e k tr r :
      Exec (k (Err e)) tr r -> Exec (AllocInput s v k) (EvFail e :: tr) r
  | ExLC lc k tr r : Exec k tr r -> Exec (EnforceZero lc k) (EvLC lc :: tr) r
  | ExMul_skip s v k xa xb xc b tr r :
      Exec (k (Ok (xa, xb, xc, b))) tr r -> Exec (Multiply s v k) (EvMul xa xb xc None :: tr) r
  | ExMul_run s f k xa xb xc tr r :
      Exec (k (Ok (xa, xb, xc, true))) tr r ->
      Exec (Multiply s (Ok f) k) (EvMul xa xb xc (Some f) :: tr) r
  | ExMul_err s e k tr r :
      Exec (k (Err e)) tr r -> Exec (Multiply s (Err e) k) (EvErr e :: tr) r
  | ExMul_fail s v e k tr r :
      Exec (k (Err e)) tr r -> Exec (Multiply s v k) (EvFail e :: tr) r
  | ExPush s k tr r : Exec k tr r -> Exec (PushNamespace s k) tr r
  | ExPop k tr r : Exec k tr r -> Exec (PopNamespace k) tr r.

  (** [w] satisfies the constraints emitted: gates multiply, linear
      combinations vanish. *)
  Definition holds (w : assignment) (ev : event) : Prop :=
    match ev with
    | EvMul a b c _ => fmul (w a) (w b) = w c
    | EvLC lc => lc_val w lc = fzero
    | _ => True
    end.
  Definition constraints_hold (w : assignment) (tr : list event) : Prop := Forall (holds w) tr.

  (** [w] is the witness recorded by a constraint system that ran every closure. *)
  Definition recorded (w : assignment) (ev : event) : Prop :=
    match ev with
    | EvAlloc x (Some v) | EvInput x (Some v) => w x = v
    | EvMul a b c (Some (va, vb, vc)) => w a = va /\ w b = vb /\ w c = vc
    | EvLC _ | EvErr _ => True
    | _ => False
    end.
  Definition witnessed (w : assignment) (tr : list event) : Prop := Forall (recorded w) tr.

  (** The public inputs of an execution, in order. *)
  Fixpoint input_vars (tr : list event) : list Var :=
    match tr with
    | [] => []
    | EvInput x _ :: tr => x :: input_vars tr
    | _ :: tr => input_vars tr
    end.

  (** Soundness of a gadget for an assignment [w]: whatever the constraint
      system, if the gadget succeeded and [w] satisfies what it emitted, then
      [Q] holds of its output. *)
  Definition sound {A} (w : assignment) (m : CS F A) (Q : A -> Prop) : Prop :=
    forall tr a, Exec m tr (Some (Ok a)) -> constraints_hold w tr -> Q a.

  (** Completeness: against a constraint system recording the witness [w], the
      gadget neither fails nor panics, [w] satisfies everything it emitted, and
      [Q] holds of its output. *)
  Definition complete {A} (w : assignment) (m : CS F A) (Q : A -> Prop) : Prop :=
    forall tr r, Exec m tr r -> witnessed w tr ->
    exists a, r = Some (Ok a) /\ constraints_hold w tr /\ Q a.
End Spec.
Arguments assignment F : clear implicits.
Arguments event F : clear implicits.
