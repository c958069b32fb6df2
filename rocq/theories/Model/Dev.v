(** src/dev.rs: is_satisfied, determinism_check and constraint_count. *)
From Coq Require Import String Ascii List Bool Arith.
From Verif Require Import Model.FieldTrait Model.Circuits Model.Synthesis.
Import ListNotations.
Open Scope string_scope.
Open Scope nat_scope.
Open Scope list_scope.

(** [Variable::get_index]: dev.rs:19-27 *)
Definition get_index (v : Var) : nat :=
  match v with VA i => i | VB i => i | VC i => i end.

(** [compute_path]: dev.rs:29-47 ([None]: '/' in the last component) *)
Fixpoint has_slash (s : string) : bool :=
  match s with
  | EmptyString => false
  | String c s => Ascii.eqb c "/" || has_slash s
  end.
Fixpoint join_path (l : list string) : string :=
  match l with
  | [] => ""
  | [x] => x
  | x :: l => (x ++ "/" ++ join_path l)%string
  end.
Definition compute_path (ns : list string) (this : string) : option string :=
  if has_slash this then None else Some (join_path (ns ++ [this])).

(** [self.a[index - 1] = value] *)
Definition vec_set {A} (l : list A) (index : nat) (x : A) : option (list A) :=
  match index with
  | O => None
  | S i => if i <? List.length l then Some (firstn i l ++ x :: skipn (S i) l) else None
  end.

(** [Vec::pop] *)
Definition vec_pop {A} (l : list A) : option (list A * A) :=
  match rev l with [] => None | x :: r => Some (rev r, x) end.

Section IsSatisfied.
  Context {F : Field}.

  (** [SatisfactionError]: dev.rs:49-55 *)
  Inductive SatisfactionError :=
  | SynthesisErr (e : SynthesisError)
  | InputLength (got expected : nat)
  | MultiplicationErr (path : string) (a b c : F)
  | LinearErr (path : string) (lhs rhs : F).

  (** [MultType], [Assignment]: dev.rs:69-84 *)
  Inductive MultType := MAllocation (a b : string) | MConstraint (path : string).
  Record Assignment := mkAssignment {
    current_namespace : list string;
    as_n : nat; as_q : nat;
    as_a : list F; as_b : list F; as_c : list F;
    as_mults : list MultType;
    as_lc : list (LC F * F * string);
    as_inputs : list nat
  }.
  Definition assignment0 : Assignment := mkAssignment [] 0 0 [] [] [] [] [] [].

  (** [get_var]: dev.rs:90-96 *)
  Definition asg_get_var (s : Assignment) (v : Var) : option (option F) :=
    option_map Some (var_get (as_a s) (as_b s) (as_c s) v).

  (** [set_var]: dev.rs:99-148.  The closure is always run. *)
  Definition asg_set_var (s : Assignment) (annotation : option string) (v : Var) (value : res F)
    : option (Assignment * bool * res unit) :=
    match value with
    | Err e => Some (s, true, Err e)
    | Ok x =>
        match v with
        | VA index =>
            obind (vec_set (as_a s) index x) (fun a =>
            let s := mkAssignment (current_namespace s) (as_n s) (as_q s) a (as_b s) (as_c s)
                                  (as_mults s) (as_lc s) (as_inputs s) in
            match annotation with
            | None => Some (s, true, Ok tt)
            | Some ann =>
                obind (vec_get (as_mults s) index) (fun m =>
                match m with
                | MAllocation _ b =>
                    obind (compute_path (current_namespace s) ann) (fun path =>
                    obind (vec_set (as_mults s) index (MAllocation path b)) (fun m =>
                    Some (mkAssignment (current_namespace s) (as_n s) (as_q s) (as_a s) (as_b s)
                            (as_c s) m (as_lc s) (as_inputs s), true, Ok tt)))
                | MConstraint _ => Some (s, true, Err Violation)
                end)
            end)
        | VB index =>
            obind (vec_set (as_b s) index x) (fun b =>
            let s := mkAssignment (current_namespace s) (as_n s) (as_q s) (as_a s) b (as_c s)
                                  (as_mults s) (as_lc s) (as_inputs s) in
            match annotation with
            | None => Some (s, true, Ok tt)
            | Some ann =>
                obind (vec_get (as_mults s) index) (fun m =>
                match m with
                | MAllocation a _ =>
                    obind (compute_path (current_namespace s) ann) (fun path =>
                    obind (vec_set (as_mults s) index (MAllocation a path)) (fun m =>
                    Some (mkAssignment (current_namespace s) (as_n s) (as_q s) (as_a s) (as_b s)
                            (as_c s) m (as_lc s) (as_inputs s), true, Ok tt)))
                | MConstraint _ => Some (s, true, Err Violation)
                end)
            end)
        | VC index =>
            obind (vec_set (as_c s) index x) (fun c =>
            let s := mkAssignment (current_namespace s) (as_n s) (as_q s) (as_a s) (as_b s) c
                                  (as_mults s) (as_lc s) (as_inputs s) in
            match annotation with
            | None => Some (s, true, Ok tt)
            | Some _ => Some (s, true, Err Violation)
            end)
        end
    end.

  (** [new_multiplication_gate]: dev.rs:151-169 *)
  Definition asg_new_gate (s : Assignment) (annotation : option string) : option Assignment :=
    let mk m := mkAssignment (current_namespace s) (S (as_n s)) (as_q s)
                  (as_a s ++ [fzero]) (as_b s ++ [fzero]) (as_c s ++ [fzero])
                  (as_mults s ++ [m]) (as_lc s) (as_inputs s) in
    match annotation with
    | Some ann =>
        obind (compute_path (current_namespace s) ann) (fun path =>
        Some (mk (MConstraint path)))
    | None => Some (mk (MAllocation "unused" "unused"))
    end.

  (** [new_linear_constraint]: dev.rs:172-181 *)
  Definition asg_new_lc (s : Assignment) (annotation : string) : option (Assignment * nat) :=
    obind (compute_path (current_namespace s) annotation) (fun path =>
    let lc := (as_lc s ++ [(lc_zero, fzero, path)]) in
    Some (mkAssignment (current_namespace s) (as_n s) (S (as_q s)) (as_a s) (as_b s) (as_c s)
            (as_mults s) lc (as_inputs s), List.length lc)).

  (** [insert_coefficient]: dev.rs:184-197 *)
  Definition asg_insert (s : Assignment) (var : Var) (coeff : Coeff F) (y : nat)
    : option Assignment :=
    obind (vec_get (as_lc s) y) (fun '(lc, k, path) =>
    obind (vec_set (as_lc s) y (lc_add_cv lc coeff var, k, path)) (fun l =>
    Some (mkAssignment (current_namespace s) (as_n s) (as_q s) (as_a s) (as_b s) (as_c s)
            (as_mults s) l (as_inputs s)))).

  (** [new_k_power]: dev.rs:206-210; namespaces: 212-223 *)
  Definition asg_new_k (s : Assignment) (index : nat) (_ : option F)
    : option (Assignment * res unit) :=
    Some (mkAssignment (current_namespace s) (as_n s) (as_q s) (as_a s) (as_b s) (as_c s)
            (as_mults s) (as_lc s) (as_inputs s ++ [index]), Ok tt).
  Definition asg_set_ns (s : Assignment) (ns : list string) : Assignment :=
    mkAssignment ns (as_n s) (as_q s) (as_a s) (as_b s) (as_c s)
      (as_mults s) (as_lc s) (as_inputs s).
  Definition asg_push (s : Assignment) (name : string) : option Assignment :=
    Some (asg_set_ns s (current_namespace s ++ [name])).
  Definition asg_pop (s : Assignment) : option Assignment :=
    obind (vec_pop (current_namespace s)) (fun '(ns, _) => Some (asg_set_ns s ns)).

  Definition assignment_backend : Backend F := {|
    BState := Assignment; BIndex := nat;
    b_get_var := asg_get_var; b_set_var := asg_set_var;
    b_new_multiplication_gate := asg_new_gate;
    b_new_linear_constraint := asg_new_lc;
    b_insert_coefficient := asg_insert;
    b_new_k_power := asg_new_k;
    b_push_namespace := asg_push; b_pop_namespace := asg_pop |}.

  (** the public input loop: dev.rs:255-262 *)
  Fixpoint set_inputs (lcs : list (LC F * F * string)) (l : list (F * nat))
    : option (list (LC F * F * string)) :=
    match l with
    | [] => Some lcs
    | (input, idx) :: l =>
        obind (vec_get lcs idx) (fun '(lc, _, path) =>
        obind (vec_set lcs idx (lc, input, path)) (fun lcs => set_inputs lcs l))
    end.

  (** gate loop: dev.rs:264-279 *)
  Fixpoint check_gates (a b c : list F) (mults : list MultType)
    : option (option SatisfactionError) :=
    match a, b, c, mults with
    | x :: a, y :: b, z :: c, m :: mults =>
        if negb (feqb (fmul x y) z) then
          Some (Some (MultiplicationErr
            (match m with
             | MAllocation a b => ("allocation(" ++ a ++ ", " ++ b ++ ")")%string
             | MConstraint path => path
             end) x y z))
        else check_gates a b c mults
    | _, _, _, _ => Some None
    end.

  (** linear constraint loop: dev.rs:281-286 *)
  Fixpoint check_lcs (a b c : list F) (lcs : list (LC F * F * string))
    : option (option SatisfactionError) :=
    match lcs with
    | [] => Some None
    | (lc, k, path) :: lcs =>
        obind (lc_evaluate lc a b c) (fun lhs =>
        if negb (feqb lhs k) then Some (Some (LinearErr path lhs k))
        else check_lcs a b c lcs)
    end.

  Inductive sat_result := SatTrue | SatErr (e : SatisfactionError).

  (** [is_satisfied]: dev.rs:65-289, with the driver [Basic] *)
  Definition is_satisfied (circuit : Var -> CS F unit) (inputs : list F) : option sat_result :=
    obind (basic_synthesize assignment_backend assignment0 circuit) (fun '(s, r) =>
    match r with
    | Err e => Some (SatErr (SynthesisErr e))
    | Ok _ =>
        let asg := backend s in
        if (as_n asg =? List.length (as_a asg)) && (as_n asg =? List.length (as_b asg)) &&
           (as_n asg =? List.length (as_c asg)) && (as_n asg =? List.length (as_mults asg)) &&
           (as_q asg =? List.length (as_lc asg))
        then
          if negb (List.length inputs + 1 =? List.length (as_inputs asg)) then
            Some (SatErr (InputLength (List.length inputs) (List.length (as_inputs asg) - 1)))
          else
            obind (hd_error (as_inputs asg)) (fun idx =>
            obind (set_inputs (as_lc asg)
                     ((fone, idx) :: combine inputs (skipn 1 (as_inputs asg)))) (fun lcs =>
            obind (check_gates (as_a asg) (as_b asg) (as_c asg) (as_mults asg)) (fun e =>
            match e with
            | Some e => Some (SatErr e)
            | None =>
                obind (check_lcs (as_a asg) (as_b asg) (as_c asg) lcs) (fun e =>
                match e with
                | Some e => Some (SatErr e)
                | None => Some SatTrue
                end)
            end)))
        else None
    end).
End IsSatisfied.
Arguments SatisfactionError F : clear implicits.
Arguments Assignment F : clear implicits.
Arguments sat_result F : clear implicits.
Arguments assignment_backend F : clear implicits.

Section Determinism.
  Context {F : Field}.

  (** [Event]: dev.rs:368-373 *)
  Inductive DEvent := DAlloc | DInputAlloc | DMultiplication | DEnforceZero (lc : LC F).

  (** [Record] as a constraint system: dev.rs:375-456.  [ONE] is [A(0)]; closures
      are never run. *)
  Definition record_ONE : Var := VA 0.
  Fixpoint record_run {A} (p : Prog F A) (vars : nat) (events : list DEvent)
    : option (nat * list DEvent * A) :=
    match p with
    | Ret a => Some (vars, events, a)
    | Panic => None
    | Alloc _ _ k => record_run (k (Ok (VA vars, false))) (S vars) (events ++ [DAlloc])
    | AllocInput _ _ k => record_run (k (Ok (VA vars, false))) (S vars) (events ++ [DInputAlloc])
    | EnforceZero lc k => record_run k vars (events ++ [DEnforceZero lc])
    | Multiply _ _ k =>
        record_run (k (Ok (VA vars, VA (S vars), VA (S (S vars)), false)))
                   (S (S (S vars))) (events ++ [DMultiplication])
    | PushNamespace _ k => record_run k vars events
    | PopNamespace k => record_run k vars events
    end.

  (** the comparison in [Enforce::enforce_zero]: dev.rs:513-528 *)
  Fixpoint lc_same (a b : LC F) : bool :=
    match a, b with
    | [], [] => true
    | (v, c) :: a, (v', c') :: b =>
        (get_index v =? get_index v') && coeff_eqb c c' && lc_same a b
    | _, _ => false
    end.

  (** [Enforce] as a constraint system: dev.rs:465-572.  Every closure is run and
      its error returned before the event is looked at ([value()?]). *)
  Fixpoint enforce_run {A} (p : Prog F A) (vars : nat) (events : list DEvent)
    : option (nat * list DEvent * A) :=
    match p with
    | Ret a => Some (vars, events, a)
    | Panic => None
    | Alloc _ v k =>
        match v with
        | Err e => enforce_run (k (Err e)) vars events
        | Ok _ =>
            match events with
            | DAlloc :: events => enforce_run (k (Ok (VA vars, true))) (S vars) events
            | _ => None
            end
        end
    | AllocInput _ v k =>
        match v with
        | Err e => enforce_run (k (Err e)) vars events
        | Ok _ =>
            match events with
            | DInputAlloc :: events => enforce_run (k (Ok (VA vars, true))) (S vars) events
            | _ => None
            end
        end
    | EnforceZero lc k =>
        match events with
        | DEnforceZero other :: events =>
            if lc_same other lc then enforce_run k vars events else None
        | _ => None
        end
    | Multiply _ v k =>
        match v with
        | Err e => enforce_run (k (Err e)) vars events
        | Ok _ =>
            match events with
            | DMultiplication :: events =>
                enforce_run (k (Ok (VA vars, VA (S vars), VA (S (S vars)), true)))
                            (S (S (S vars))) events
            | _ => None
            end
        end
    | PushNamespace _ k => enforce_run k vars events
    | PopNamespace k => enforce_run k vars events
    end.

  (** [determinism_check]: dev.rs:367-582.  [None] is a panic. *)
  Definition determinism_check (circuit : Var -> CS F unit) : option (res unit) :=
    obind (record_run (circuit record_ONE) 1 []) (fun '(_, events, r) =>
    match r with
    | Err e => Some (Err e)
    | Ok _ =>
        obind (enforce_run (circuit record_ONE) 1 events) (fun '(_, _, r) =>
        match r with
        | Err e => Some (Err e)
        | Ok _ => Some (Ok tt)
        end)
    end).
End Determinism.
Arguments DEvent F : clear implicits.

Section ConstraintCount.
  Context {F : Field}.

  (** [ConstraintCounts], [AddAssign]: dev.rs:584-609 *)
  Record Counts := mkCounts {
    allocations : nat; mult_constraints : nat; total_mults : nat; total_lcs : nat }.
  Definition counts0 := mkCounts 0 0 0 0.
  Definition counts_add (a b : Counts) : Counts :=
    mkCounts (allocations a + allocations b) (mult_constraints a + mult_constraints b)
             (total_mults a + total_mults b) (total_lcs a + total_lcs b).

  (** [Assignment]: dev.rs:620-625.  The [BTreeMap] is an association list in
      which [insert] replaces an existing entry. *)
  Record CountState := mkCount {
    cs_counts : list (string * Counts);
    cs_namespace : list string;
    cs_stack : list Counts;
    cs_current : Counts }.
  Definition map_insert (m : list (string * Counts)) (k : string) (c : Counts) :=
    (k, c) :: filter (fun kc => negb (String.eqb (fst kc) k)) m.

  Definition cnt_with (s : CountState) (c : Counts) : CountState :=
    mkCount (cs_counts s) (cs_namespace s) (cs_stack s) c.
  (** [new_multiplication_gate]: 631-640; [set_var]: 642-658;
      [new_linear_constraint]: 661-668; [push_namespace]: 675-688;
      [pop_namespace]: 690-704 (all dev.rs) *)
  Definition cnt_new_gate (s : CountState) (annotation : option string) : option CountState :=
    let c := cs_current s in
    Some (cnt_with s (mkCounts (allocations c)
      (match annotation with Some _ => S (mult_constraints c) | None => mult_constraints c end)
      (S (total_mults c)) (total_lcs c))).
  Definition cnt_set_var (s : CountState) (annotation : option string) (_ : Var) (_ : res F)
    : option (CountState * bool * res unit) :=
    let c := cs_current s in
    Some (match annotation with
          | Some _ => cnt_with s (mkCounts (S (allocations c)) (mult_constraints c)
                                           (total_mults c) (total_lcs c))
          | None => s
          end, false, Ok tt).
  Definition cnt_new_lc (s : CountState) (_ : string) : option (CountState * nat) :=
    let c := cs_current s in
    Some (cnt_with s (mkCounts (allocations c) (mult_constraints c) (total_mults c)
                               (S (total_lcs c))), S (total_lcs c)).
  Definition cnt_push (s : CountState) (name : string) : option CountState :=
    Some (mkCount (cs_counts s) (cs_namespace s ++ [name]) (cs_stack s ++ [cs_current s]) counts0).
  Definition cnt_pop (s : CountState) : option CountState :=
    obind (vec_pop (cs_namespace s)) (fun '(ns, node) =>
    obind (compute_path ns node) (fun path =>
    let '(stack, parent) :=
      match vec_pop (cs_stack s) with Some x => x | None => ([], counts0) end in
    Some (mkCount (map_insert (cs_counts s) path (cs_current s)) ns stack
                  (counts_add (cs_current s) parent)))).

  Definition count_backend : Backend F := {|
    BState := CountState; BIndex := nat;
    b_get_var := default_get_var; b_set_var := cnt_set_var;
    b_new_multiplication_gate := cnt_new_gate;
    b_new_linear_constraint := cnt_new_lc;
    b_insert_coefficient := default_insert_coefficient;
    b_new_k_power := default_new_k_power;
    b_push_namespace := cnt_push; b_pop_namespace := cnt_pop |}.

  (** [constraint_count]: dev.rs:617-720, with the driver [Basic] *)
  Definition constraint_count (circuit : Var -> CS F unit)
    : option (res (list (string * Counts))) :=
    obind (basic_synthesize count_backend (mkCount [] [] [] counts0) circuit) (fun '(s, r) =>
    match r with
    | Err e => Some (Err e)
    | Ok _ => Some (Ok (map_insert (cs_counts (backend s)) "" (cs_current (backend s))))
    end).
End ConstraintCount.
Arguments count_backend F : clear implicits.
