(** src/proofs.rs:1112-1234 and 1509-1720: the parameters of the polynomial
    commitments, and the evaluations of the polynomial s(X, Y) of a circuit.

    As everywhere, arithmetic on [usize] that would overflow or go below zero is
    a panic (as in debug builds), and so is an index out of range. *)
From Coq Require Import ZArith List Bool Arith String.
From Verif Require Import Model.FieldTrait Model.Circuits Model.Synthesis Model.Dev Model.Curve
  Model.Threads Model.Util.
Import ListNotations.
Open Scope nat_scope.
Open Scope list_scope.

(** The outcome of a call that may also not have finished: [Running] means that
    a search loop has not found what it looks for within the number of attempts
    the model was given. *)
Inductive outcome (A : Type) := Done (a : A) | Panicked | Running.
Arguments Done {A} _. Arguments Panicked {A}. Arguments Running {A}.
Definition out_bind {A B} (o : outcome A) (f : A -> outcome B) : outcome B :=
  match o with Done a => f a | Panicked => Panicked | Running => Running end.
(** the operator [?] on a [Result] *)
Definition out_try {A B} (o : outcome (res A)) (f : A -> outcome (res B)) : outcome (res B) :=
  out_bind o (fun r => match r with Ok a => f a | Err e => Done (Err e) end).
Definition out_opt {A} (o : option A) : outcome A := match o with Some a => Done a | None => Panicked end.
Definition out_assert (b : bool) : outcome unit := if b then Done tt else Panicked.
Declare Scope out_scope.
Delimit Scope out_scope with out.
Notation "x <~ m ;; f" := (out_bind m (fun x => f))
  (at level 61, m at next level, right associativity) : out_scope.
Notation "' p <~ m ;; f" := (out_bind m (fun x => let p := x in f))
  (at level 61, p pattern, m at next level, right associativity) : out_scope.
Notation "x <~? m ;; f" := (out_try m (fun x => f))
  (at level 61, m at next level, right associativity) : out_scope.
Notation "' p <~? m ;; f" := (out_try m (fun x => let p := x in f))
  (at level 61, p pattern, m at next level, right associativity) : out_scope.
Open Scope out_scope.

(** Slices: [&v[from..]], [&v[0..to]] *)
Definition slice_from {A} (v : list A) (from : nat) : option (list A) :=
  if from <=? List.length v then Some (skipn from v) else None.
Definition slice_to {A} (v : list A) (to : nat) : option (list A) :=
  if to <=? List.length v then Some (firstn to v) else None.
(** [a - b] on [usize] *)
Definition usize_sub (a b : nat) : option nat := if b <=? a then Some (a - b) else None.

(** [SxEval]: proofs.rs:1518-1551 *)
Section SxEval.
  Context {F : Field}.
  Record SxEval := mkSx { sx_y : F; sx_cur_y : F; sx_u : list F; sx_v : list F; sx_w : list F }.
  Definition sx_new (y : F) : SxEval := mkSx y fone [] [] [].

  (** The backend: proofs.rs:1553-1599 *)
  Definition sx_new_gate (s : SxEval) (_ : option string) : option SxEval :=
    Some (mkSx (sx_y s) (sx_cur_y s) (sx_u s ++ [fzero]) (sx_v s ++ [fzero]) (sx_w s ++ [fzero])).
  Definition sx_new_lc (s : SxEval) (_ : string) : option (SxEval * F) :=
    let cur_y := fmul (sx_cur_y s) (sx_y s) in
    Some (mkSx (sx_y s) cur_y (sx_u s) (sx_v s) (sx_w s), cur_y).
  (** [*acc = *acc + tmp] at [index - 1] *)
  Definition add_at (l : list F) (index : nat) (tmp : F) : option (list F) :=
    obind (vec_get l index) (fun acc => vec_set l index (fadd acc tmp)).
  Definition sx_insert (s : SxEval) (var : Var) (coeff : Coeff F) (y : F) : option SxEval :=
    let tmp := coeff_multiply coeff y in
    match var with
    | VA index => option_map (fun u => mkSx (sx_y s) (sx_cur_y s) u (sx_v s) (sx_w s)) (add_at (sx_u s) index tmp)
    | VB index => option_map (fun v => mkSx (sx_y s) (sx_cur_y s) (sx_u s) v (sx_w s)) (add_at (sx_v s) index tmp)
    | VC index => option_map (fun w => mkSx (sx_y s) (sx_cur_y s) (sx_u s) (sx_v s) w) (add_at (sx_w s) index tmp)
    end.
  Definition sx_backend : Backend F := {|
    BState := SxEval; BIndex := F;
    b_get_var := default_get_var; b_set_var := default_set_var;
    b_new_multiplication_gate := sx_new_gate;
    b_new_linear_constraint := sx_new_lc;
    b_insert_coefficient := sx_insert;
    b_new_k_power := default_new_k_power;
    b_push_namespace := default_push_namespace; b_pop_namespace := default_pop_namespace |}.
End SxEval.
Arguments SxEval F : clear implicits. Arguments sx_backend F : clear implicits.

(** [SyEval]: proofs.rs:1606-1664 *)
Section SyEval.
  Context {F : Field}.
  Record SyEval := mkSy { sy_a : list F; sy_b : list F; sy_c : list F; sy_poly : list F }.
  (** [for a in &mut a { tmp.mul_assign(&x); *a = tmp; }] over [n] cells: the
      cells, and [tmp] at the end *)
  Fixpoint fill_powers (x : F) (tmp : F) (n : nat) : list F * F :=
    match n with
    | O => ([], tmp)
    | S n => let tmp := fmul tmp x in let '(l, last) := fill_powers x tmp n in (tmp :: l, last)
    end.
  Definition sy_new (x : F) (n q : nat) : option SyEval :=
    obind (f_invert x) (fun xinv =>
    let '(a, _) := fill_powers xinv fone n in
    let '(b, tmp) := fill_powers x fone n in
    let '(c, _) := fill_powers x tmp n in
    Some (mkSy a b c [fzero])).

  (** The backend: proofs.rs:1666-1720 ([poly[yindex]] is indexed from 0) *)
  Definition sy_new_lc (s : SyEval) (_ : string) : option (SyEval * nat) :=
    Some (mkSy (sy_a s) (sy_b s) (sy_c s) (sy_poly s ++ [fzero]), List.length (sy_poly s)).
  Definition sy_insert (s : SyEval) (var : Var) (coeff : Coeff F) (q : nat) : option SyEval :=
    obind (var_get (sy_a s) (sy_b s) (sy_c s) var) (fun tmp =>
    option_map (mkSy (sy_a s) (sy_b s) (sy_c s)) (add_at (sy_poly s) (S q) (coeff_multiply coeff tmp))).
  Definition sy_backend : Backend F := {|
    BState := SyEval; BIndex := nat;
    b_get_var := default_get_var; b_set_var := default_set_var;
    b_new_multiplication_gate := default_new_multiplication_gate;
    b_new_linear_constraint := sy_new_lc;
    b_insert_coefficient := sy_insert;
    b_new_k_power := default_new_k_power;
    b_push_namespace := default_push_namespace; b_pop_namespace := default_pop_namespace |}.
End SyEval.
Arguments SyEval F : clear implicits. Arguments sy_backend F : clear implicits.

(** [S::synthesize(&mut backend, circuit)?] with the driver [Basic] *)
Definition synthesize {F : Field} (B : Backend F) (b : BState B) (circuit : Var -> CS F unit)
  : outcome (res (BState B)) :=
  match basic_synthesize B b circuit with
  | None => Panicked
  | Some (s, Ok _) => Done (Ok (backend s))
  | Some (_, Err e) => Done (Err e)
  end.

Section Params.
  Context {C : Curve}.

  (** [Params]: proofs.rs:1112-1120 *)
  Record Params := mkParams {
    p_g : C; p_d : nat; p_n : nat; p_k : nat;
    p_generators : list C; p_generators_xy : list (Base C * Base C) }.

  (** The [loop] of [Params::new] for one generator: proofs.rs:1147-1158.  The
      random bytes of the successive attempts are [rng 0], [rng 1], ... *)
  Fixpoint find_generator (fuel : nat) (rng : nat -> list Z) (attempt : nat) : outcome (C * (Base C * Base C)) :=
    match fuel with
    | O => Running
    | S fuel =>
        match c_from_bytes (rng attempt) with
        | Some p =>
            let '(x, y, z) := c_get_xyz p in
            if feqb z fone then Done (p, (x, y)) else Panicked
        | None => find_generator fuel rng (S attempt)
        end
    end.
  (** The threads are joined at the end of the scope: the call has not finished if
      one of them has not, and panics if one of them panicked. *)
  Fixpoint join_all {A} (l : list (outcome A)) : outcome (list A) :=
    match l with
    | [] => Done []
    | o :: l =>
        match o, join_all l with
        | Running, _ | _, Running => Running
        | Panicked, _ | _, Panicked => Panicked
        | Done a, Done l => Done (a :: l)
        end
    end.
  (** [Params::new]: proofs.rs:1123-1175.  Each thread fills its own chunk of the
      two vectors with points of its own random bytes ([rng i] for generator i),
      so the schedule has no effect and the threads are left out. *)
  Definition params_new (rng : nat -> nat -> list Z) (fuel : nat) (k : nat) : outcome Params :=
    if 3 <? k then
      let d := 2 ^ k in
      let n := d / 4 in
      found <~ join_all (map (fun i => find_generator fuel (rng i) 0) (seq 0 d)) ;;
      Done (mkParams c_one d n k (map fst found) (map snd found))
    else Panicked.

  (** [commit]: proofs.rs:1177-1184 *)
  Definition commit (M : Machine) (self : Params) (v : list (Scalar C)) (right_edge : bool) : option C :=
    if List.length v <=? List.length (p_generators self) then
      if right_edge then
        obind (slice_from (p_generators self) (List.length (p_generators self) - List.length v)) (multiexp M v)
      else
        obind (slice_to (p_generators self) (List.length v)) (multiexp M v)
    else None.

  (** [compute_sx]: proofs.rs:1186-1205 *)
  Definition compute_sx (self : Params) (circuit : Var -> CS (Scalar C) unit) (y : Scalar C)
      : outcome (res (list (Scalar C))) :=
    sx <~? synthesize (sx_backend (Scalar C)) (sx_new y) circuit ;;
    let u := resize (sx_u sx) (p_n self) in
    let v := resize (sx_v sx) (p_n self) in
    let w := resize (sx_w sx) (p_n self) in
    let sx := rev u ++ [fzero] ++ v ++ w in
    _ <~ out_assert (List.length sx =? 3 * p_n self + 1) ;;
    Done (Ok sx).

  (** [compute_sy]: proofs.rs:1207-1217 *)
  Definition compute_sy (self : Params) (circuit : Var -> CS (Scalar C) unit) (x : Scalar C) (n q : nat)
      : outcome (res (list (Scalar C))) :=
    sy <~ out_opt (sy_new x n q) ;;
    sy <~? synthesize (sy_backend (Scalar C)) sy circuit ;;
    Done (Ok (sy_poly sy)).

  (** [compute_opening]: proofs.rs:1219-1233 *)
  Definition compute_opening (self : Params) (v : list (Scalar C)) (point : Scalar C) (right_edge : bool)
      : option (Scalar C) :=
    let '(acc, _) := fold_left (fun '(acc, cur) v =>
      let tmp := fmul cur v in (fadd acc tmp, fmul cur point)) v (fzero, fone) in
    if right_edge then
      obind (usize_sub (List.length (p_generators self)) (List.length v)) (fun e =>
      Some (fmul acc (pow (Scalar C) point (exp64 e))))
    else Some acc.
End Params.
Arguments Params C : clear implicits.
