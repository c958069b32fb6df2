(** src/circuits.rs: variables, coefficients, linear combinations and the
    constraint-system interface. *)
From Coq Require Import String List Bool Arith.
From Verif Require Import Model.FieldTrait.
Import ListNotations.

(** [Variable]: circuits.rs:5-10.  [usize] is [nat]: indices are bounded by
    memory, overflow of [usize] is not modelled. *)
Inductive Var := VA (i : nat) | VB (i : nat) | VC (i : nat).

(** [SynthesisError]: circuits.rs:12-18 *)
Inductive SynthesisError :=
  AssignmentMissing | DivisionByZero | Unsatisfiable | Violation.

(** [Result<A, SynthesisError>] *)
Inductive res (A : Type) := Ok (a : A) | Err (e : SynthesisError).
Arguments Ok {A} _. Arguments Err {A} _.

(** [Result::ok] and [Option::ok_or(AssignmentMissing)] *)
Definition ok {A} (r : res A) : option A :=
  match r with Ok a => Some a | Err _ => None end.
Definition ok_or_missing {A} (o : option A) : res A :=
  match o with Some a => Ok a | None => Err AssignmentMissing end.
(** the [?] operator on a closure's [Result] *)
Definition rbind {A B} (r : res A) (f : A -> res B) : res B :=
  match r with Ok a => f a | Err e => Err e end.
Definition obind {A B} (o : option A) (f : A -> option B) : option B :=
  match o with Some a => f a | None => None end.

Section LinearCombinations.
  Context {F : Field}.

  (** [Coeff]: circuits.rs:267-279 *)
  Inductive Coeff := CZero | COne | CNegOne | CFull (x : F).

  (** [Neg for Coeff]: circuits.rs:342-356 *)
  Definition coeff_neg (c : Coeff) : Coeff :=
    match c with
    | CZero => CZero | COne => CNegOne | CNegOne => COne
    | CFull a => CFull (fneg a)
    end.

  (** [Mul<F> for Coeff]: circuits.rs:281-292 *)
  Definition coeff_mul_f (c : Coeff) (other : F) : Coeff :=
    match c with
    | CZero => CZero
    | COne => CFull other
    | CNegOne => CFull (fneg other)
    | CFull val => CFull (fmul val other)
    end.

  (** [Mul<Coeff> for Coeff]: circuits.rs:294-305 *)
  Definition coeff_mul (c other : Coeff) : Coeff :=
    match c, other with
    | CZero, _ | _, CZero => CZero
    | COne, a | a, COne => a
    | CNegOne, a | a, CNegOne => coeff_neg a
    | CFull a, CFull b => CFull (fmul a b)
    end.

  (** [Coeff::multiply]: circuits.rs:308-321 *)
  Definition coeff_multiply (c : Coeff) (with_ : F) : F :=
    match c with
    | CZero => fzero
    | COne => with_
    | CNegOne => fneg with_
    | CFull val => fmul with_ val
    end.

  (** [Coeff::double]: circuits.rs:323-330 *)
  Definition coeff_double (c : Coeff) : Coeff :=
    match c with
    | CZero => CZero
    | COne => CFull (fadd fone fone)
    | CNegOne => CFull (fneg (fadd fone fone))
    | CFull val => CFull (fadd val val)
    end.

  (** [Coeff::value]: circuits.rs:332-339 *)
  Definition coeff_value (c : Coeff) : F :=
    match c with
    | CZero => fzero | COne => fone | CNegOne => fneg fone | CFull val => val
    end.

  (** [PartialEq for Coeff] (derived): circuits.rs:267.  Structural. *)
  Definition coeff_eqb (a b : Coeff) : bool :=
    match a, b with
    | CZero, CZero | COne, COne | CNegOne, CNegOne => true
    | CFull x, CFull y => feqb x y
    | _, _ => false
    end.

  (** [LinearCombination]: circuits.rs:358-359 *)
  Definition LC := list (Var * Coeff).

  (** [zero]: circuits.rs:389-393; [Add<(Coeff, Variable)>]: 395-403;
      [Sub<(Coeff, Variable)>]: 405-411; [Add<Variable>]: 413-419;
      [Sub<Variable>]: 421-427; [From<Variable>]: 377-381 *)
  Definition lc_zero : LC := [].
  Definition lc_add_cv (lc : LC) (c : Coeff) (v : Var) : LC := lc ++ [(v, c)].
  Definition lc_sub_cv (lc : LC) (c : Coeff) (v : Var) : LC :=
    lc_add_cv lc (coeff_neg c) v.
  Definition lc_add_v (lc : LC) (v : Var) : LC := lc_add_cv lc COne v.
  Definition lc_sub_v (lc : LC) (v : Var) : LC := lc_sub_cv lc COne v.
  Definition lc_from (v : Var) : LC := lc_add_v lc_zero v.

  (** [Add<&LinearCombination>]: circuits.rs:429-439; [Sub<&LinearCombination>]: 441-451;
      [Add<(Coeff, &LinearCombination)>]: 453-463;
      [Sub<(Coeff, &LinearCombination)>]: 465-475 *)
  Definition lc_add_lc (lc other : LC) : LC :=
    fold_left (fun acc s => lc_add_cv acc (snd s) (fst s)) other lc.
  Definition lc_sub_lc (lc other : LC) : LC :=
    fold_left (fun acc s => lc_sub_cv acc (snd s) (fst s)) other lc.
  Definition lc_add_clc (lc : LC) (c : Coeff) (other : LC) : LC :=
    fold_left (fun acc s => lc_add_cv acc (coeff_mul (snd s) c) (fst s)) other lc.
  Definition lc_sub_clc (lc : LC) (c : Coeff) (other : LC) : LC :=
    fold_left (fun acc s => lc_sub_cv acc (coeff_mul (snd s) c) (fst s)) other lc.

  (** [a[index - 1]]: panics ([None]) when [index] is 0 or too large. *)
  Definition vec_get {A} (a : list A) (index : nat) : option A :=
    match index with O => None | S i => nth_error a i end.
  Definition var_get {A} (a b c : list A) (v : Var) : option A :=
    match v with VA i => vec_get a i | VB i => vec_get b i | VC i => vec_get c i end.

  (** [LinearCombination::evaluate]: circuits.rs:361-375 ([None] = panic) *)
  Fixpoint lc_evaluate_from (acc : F) (lc : LC) (a b c : list F) : option F :=
    match lc with
    | [] => Some acc
    | (var, coeff) :: lc =>
        match var_get a b c var with
        | None => None
        | Some x => lc_evaluate_from (fadd acc (coeff_multiply coeff x)) lc a b c
        end
    end.
  Definition lc_evaluate (lc : LC) (a b c : list F) : option F :=
    lc_evaluate_from fzero lc a b c.
End LinearCombinations.
Arguments Coeff F : clear implicits.
Arguments LC F : clear implicits.

(** A circuit generic in [CS: ConstraintSystem<F>] (circuits.rs:33-35, 39-108)
    can only interact with the constraint system through the trait's calls, so
    it is a tree of calls.  A value closure is represented by its result; since
    [FnOnce] closures may also store that result in a captured variable, every
    allocating call additionally tells its caller whether the closure was run
    (the [bool]).  [Panic] is an assertion failure or [unwrap] in the circuit.
    Simplification: closures do not panic. *)
Inductive Prog (F : Field) (A : Type) : Type :=
| Ret (a : A)
| Panic
| Alloc (annotation : string) (value : res F) (k : res (Var * bool) -> Prog F A)
| AllocInput (annotation : string) (value : res F) (k : res (Var * bool) -> Prog F A)
| EnforceZero (lc : LC F) (k : Prog F A)
| Multiply (annotation : string) (values : res (F * F * F))
           (k : res (Var * Var * Var * bool) -> Prog F A)
| PushNamespace (name : string) (k : Prog F A)
| PopNamespace (k : Prog F A).
Arguments Ret {F A} _. Arguments Panic {F A}.
Arguments Alloc {F A} _ _ _. Arguments AllocInput {F A} _ _ _.
Arguments EnforceZero {F A} _ _. Arguments Multiply {F A} _ _ _.
Arguments PushNamespace {F A} _ _. Arguments PopNamespace {F A} _.

Fixpoint pbind {F A B} (p : Prog F A) (f : A -> Prog F B) : Prog F B :=
  match p with
  | Ret a => f a
  | Panic => Panic
  | Alloc s v k => Alloc s v (fun r => pbind (k r) f)
  | AllocInput s v k => AllocInput s v (fun r => pbind (k r) f)
  | EnforceZero lc k => EnforceZero lc (pbind k f)
  | Multiply s v k => Multiply s v (fun r => pbind (k r) f)
  | PushNamespace s k => PushNamespace s (pbind k f)
  | PopNamespace k => PopNamespace (pbind k f)
  end.

(** Functions returning [Result<A, SynthesisError>]; [bind] is [?]. *)
Definition CS (F : Field) (A : Type) := Prog F (res A).
Definition ret {F A} (a : A) : CS F A := Ret (Ok a).
Definition fail {F A} (e : SynthesisError) : CS F A := Ret (Err e).
Definition bind {F A B} (m : CS F A) (f : A -> CS F B) : CS F B :=
  pbind m (fun r => match r with Ok a => f a | Err e => Ret (Err e) end).
Definition lift {F A} (r : res A) : CS F A := Ret r.
(** [assert!] *)
Definition assert_ {F} (b : bool) : CS F unit := if b then ret tt else Panic.
(** [unwrap] on an [Option] *)
Definition unwrap {F A} (o : option A) : CS F A :=
  match o with Some a => ret a | None => Panic end.

Declare Scope cs_scope.
Delimit Scope cs_scope with cs.
Notation "x <- m ;; f" := (bind m (fun x => f))
  (at level 61, m at next level, right associativity) : cs_scope.
Notation "' p <- m ;; f" := (bind m (fun x => let p := x in f))
  (at level 61, p pattern, m at next level, right associativity) : cs_scope.
Notation "m ;;; f" := (bind m (fun _ => f))
  (at level 61, right associativity) : cs_scope.

(** The calls.  The value a closure stored in a captured variable is
    [Some v] exactly when it ran successfully. *)
Definition stored {A} (called : bool) (v : res A) : option A :=
  if called then ok v else None.
Definition alloc {F : Field} (s : string) (v : res F) : CS F (Var * option F) :=
  Alloc s v (fun r => match r with
    | Ok (x, called) => ret (x, stored called v) | Err e => fail e end).
Definition alloc_input {F : Field} (s : string) (v : res F) : CS F (Var * option F) :=
  AllocInput s v (fun r => match r with
    | Ok (x, called) => ret (x, stored called v) | Err e => fail e end).
Definition enforce_zero {F} (lc : LC F) : CS F unit := EnforceZero lc (ret tt).
Definition multiply {F : Field} (s : string) (v : res (F * F * F))
  : CS F (Var * Var * Var * option (F * F * F)) :=
  Multiply s v (fun r => match r with
    | Ok (x, called) => ret (x, stored called v) | Err e => fail e end).

(** [namespace] and [Drop for Namespace]: circuits.rs:98-108, 112-207.  The guard
    is dropped on success and on error alike. *)
Definition namespace {F A} (name : string) (m : CS F A) : CS F A :=
  PushNamespace name (pbind m (fun r => PopNamespace (Ret r))).

(** [for x in xs { .. }] threading an accumulator. *)
Fixpoint foldM {F A B} (f : B -> A -> CS F B) (xs : list A) (acc : B) : CS F B :=
  match xs with
  | [] => ret acc
  | x :: xs => bind (f acc x) (foldM f xs)
  end.
(** [xs.map(f).collect::<Result<Vec<_>, _>>()] *)
Fixpoint mapM {F A B} (f : A -> CS F B) (xs : list A) : CS F (list B) :=
  match xs with
  | [] => ret []
  | x :: xs => bind (f x) (fun y => bind (mapM f xs) (fun ys => ret (y :: ys)))
  end.

(** [iter().enumerate()] *)
Definition enumerate {A} (xs : list A) : list (nat * A) := combine (seq 0 (length xs)) xs.
