(** The system of constraints that a circuit describes, and the polynomials of
    the protocol that stand for it.  Written as a reference interpreter of a
    circuit, without backends.

    Single wires are laid out two per gate: the first is the left wire A(i) of a
    new gate i, the second the right wire B(i), and the output C(i) of that gate
    is their product.  The linear constraints are numbered 1, 2, ...; constraint
    q demands that its linear combination equals k_q, the value of a public input
    if the constraint belongs to one and 0 otherwise.  The circuit's first public
    input is the constant one: gate 1, constraint 1. *)
From Coq Require Import String List Bool Arith.
From Verif Require Import Model.FieldTrait Model.Circuits Spec.CircuitSpec Spec.UtilSpec.
Import ListNotations.
Open Scope nat_scope.
Open Scope list_scope.

Section System.
  Context {F : Field}.

  (** So far: the gate whose right wire is still free, the number of gates, the
      linear constraints, the numbers and values of the public inputs, and the
      values of the wires. *)
  Record layout := mkLayout {
    l_half : option nat; l_gates : nat; l_lcs : list (LC F);
    l_inputs : list nat; l_values : list F;
    l_a : list F; l_b : list F; l_c : list F }.

  (** [l] with [x] at (1-based) position [i] *)
  Definition put (i : nat) (x : F) (l : list F) : list F := firstn (i - 1) l ++ x :: skipn i l.
  Definition wire (l : list F) (i : nat) : F := nth (i - 1) l fzero.

  Definition lay_wire (s : layout) (v : F) : layout * Var :=
    match l_half s with
    | None =>
        let i := S (l_gates s) in
        (mkLayout (Some i) i (l_lcs s) (l_inputs s) (l_values s)
           (l_a s ++ [v]) (l_b s ++ [fzero]) (l_c s ++ [fzero]), VA i)
    | Some i =>
        (mkLayout None (l_gates s) (l_lcs s) (l_inputs s) (l_values s)
           (l_a s) (put i v (l_b s)) (put i (fmul (wire (l_a s) i) v) (l_c s)), VB i)
    end.
  Definition lay_lc (s : layout) (lc : LC F) : layout :=
    mkLayout (l_half s) (l_gates s) (l_lcs s ++ [lc]) (l_inputs s) (l_values s) (l_a s) (l_b s) (l_c s).
  Definition lay_input (s : layout) (v : F) : layout * Var :=
    let '(s, x) := lay_wire s v in
    (mkLayout (l_half s) (l_gates s) (l_lcs s ++ [[(x, COne)]])
       (l_inputs s ++ [S (length (l_lcs s))]) (l_values s ++ [v]) (l_a s) (l_b s) (l_c s), x).
  Definition lay_gate (s : layout) (a b c : F) : layout :=
    mkLayout (l_half s) (S (l_gates s)) (l_lcs s) (l_inputs s) (l_values s)
      (l_a s ++ [a]) (l_b s ++ [b]) (l_c s ++ [c]).

  (** the value of a closure: 0 if closures are not run *)
  Definition value_of {A} (ran : bool) (none : A) (v : res A) : option A :=
    if ran then match v with Ok x => Some x | Err _ => None end else Some none.
  (** every variable belongs to one of the first [n] gates *)
  Definition within (n : nat) (x : Var) : bool :=
    match x with VA i | VB i | VC i => (1 <=? i) && (i <=? n) end.

  (** [None]: the circuit panics, a closure that is run fails, or a linear
      combination mentions a variable of no gate. *)
  Fixpoint lay {A} (ran : bool) (p : Prog F A) (s : layout) : option (layout * A) :=
    match p with
    | Ret a => Some (s, a)
    | Panic => None
    | Alloc _ v k =>
        match value_of ran fzero v with
        | Some v => let '(s, x) := lay_wire s v in lay ran (k (Ok (x, ran))) s
        | None => None
        end
    | AllocInput _ v k =>
        match value_of ran fzero v with
        | Some v => let '(s, x) := lay_input s v in lay ran (k (Ok (x, true))) s
        | None => None
        end
    | EnforceZero lc k =>
        if forallb (fun t => within (l_gates s) (fst t)) lc then lay ran k (lay_lc s lc) else None
    | Multiply _ v k =>
        match value_of ran (fzero, fzero, fzero) v with
        | Some (a, b, c) =>
            let s := lay_gate s a b c in
            let i := l_gates s in
            lay ran (k (Ok (VA i, VB i, VC i, ran))) s
        | None => None
        end
    | PushNamespace _ k | PopNamespace k => lay ran k s
    end.

  (** The constant one is wire A(1) and constraint 1. *)
  Definition layout0 (ran : bool) : layout :=
    let one := if ran then fone else fzero in
    mkLayout (Some 1) 1 [[(VA 1, COne)]] [1] [one] [one] [fzero] [fzero].
  (** The circuit is laid out as [s]: with its witness ([ran = true]) or without. *)
  Definition laid_out (ran : bool) (circuit : Var -> CS F unit) (s : layout) : Prop :=
    lay ran (circuit (VA 1)) (layout0 ran) = Some (s, Ok tt).
  Definition same_system (s t : layout) : Prop :=
    l_gates s = l_gates t /\ l_lcs s = l_lcs t /\ l_inputs s = l_inputs t.

  (** The values of the wires as an assignment *)
  Definition wires (a b c : list F) : assignment F :=
    fun x => match x with VA i => wire a i | VB i => wire b i | VC i => wire c i end.
  (** k_q for inputs at positions [ps] with values [vs] *)
  Fixpoint input_at (ps : list nat) (vs : list F) (q : nat) : F :=
    match ps, vs with
    | p :: ps, v :: vs => if p =? q then v else input_at ps vs q
    | _, _ => fzero
    end.
  Definition gates_satisfied (gates : nat) (a b c : list F) : Prop :=
    forall i, 1 <= i <= gates -> fmul (wire a i) (wire b i) = wire c i.
  Definition lcs_satisfied (lcs : list (LC F)) (ps : list nat) (vs : list F) (a b c : list F) : Prop :=
    forall q lc, nth_error lcs (q - 1) = Some lc -> 1 <= q -> lc_val (wires a b c) lc = input_at ps vs q.
  Definition satisfied (s : layout) : Prop :=
    gates_satisfied (l_gates s) (l_a s) (l_b s) (l_c s) /\
    lcs_satisfied (l_lcs s) (l_inputs s) (l_values s) (l_a s) (l_b s) (l_c s).

  (** The polynomials at x (with inverse xi) and y, for n gates:
      s(x, y) = sum_q y^q (lc_q with A(i) := x^-i, B(i) := x^i, C(i) := x^(i+n)),
      k(y) = sum_q y^q k_q. *)
  Definition monomials (n : nat) (x xi : F) : assignment F :=
    fun v => match v with VA i => fpow xi i | VB i => fpow x i | VC i => fpow x (i + n) end.
  Definition lc_number (lcs : list (LC F)) (q : nat) : LC F := nth (q - 1) lcs [].
  (** sum over q = 1..Q *)
  Definition sum_q (f : nat -> F) (Q : nat) : F := fsum (fun q => f (S q)) Q.
  Definition s_value (n : nat) (lcs : list (LC F)) (x xi y : F) : F :=
    sum_q (fun q => fmul (fpow y q) (lc_val (monomials n x xi) (lc_number lcs q))) (length lcs).
  Definition k_value (ps : list nat) (vs : list F) (Q : nat) (y : F) : F :=
    sum_q (fun q => fmul (fpow y q) (input_at ps vs q)) Q.
End System.
Arguments layout F : clear implicits.
