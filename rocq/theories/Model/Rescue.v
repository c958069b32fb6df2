(** src/rescue.rs: the Rescue permutation and the duplex sponge.
    Fixed-size arrays are lists; the lengths are the constants below. *)
From Coq Require Import List Bool ZArith.
From Verif Require Import Model.FieldTrait.
Import ListNotations.
Open Scope nat_scope.

(** rescue.rs:6-10 *)
Definition RESCUE_ROUNDS : nat := 10.
Definition RESCUE_M : nat := 13.
Definition SPONGE_RATE : nat := RESCUE_M - 1.

(** element-wise [a[i] op b[i]] over the common indices (the loops
    [for i in 0..N]; [zip]) *)
Fixpoint zip_with {A B C} (f : A -> B -> C) (xs : list A) (ys : list B) : list C :=
  match xs, ys with x :: xs, y :: ys => f x y :: zip_with f xs ys | _, _ => [] end.

Section Rescue.
  Context {F : Field}.

  (** [generate_mds_matrix]: rescue.rs:12-21 *)
  Definition generate_mds_matrix : list (list F) :=
    map (fun i => map (fun j => f_from_u64 (Z.of_nat ((i + 1) * j))) (seq 0 RESCUE_M))
        (seq 0 RESCUE_M).

  (** [mds]: rescue.rs:23-34; each output entry accumulates from zero, in order *)
  Definition mds (in_state : list F) (mds_matrix : list (list F)) : list F :=
    map (fun row => fold_left (fun acc t => fadd acc t) (zip_with fmul row in_state) fzero) mds_matrix.

  (** the exponent of round [r]: rescue.rs:46-50, 81-85 *)
  Definition round_exp (r : nat) : limbs :=
    if r mod 2 =? 0 then f_RESCUE_INVALPHA F else L4 (f_RESCUE_ALPHA F) 0 0 0.

  (** one iteration of the round loop: rescue.rs:45-58, 80-92 *)
  Definition round_ (mds_matrix : list (list F)) (r : nat) (key : list F) (state : list F) : list F :=
    let state := map (fun entry => pow_vartime F entry (round_exp r)) state in
    let state := mds state mds_matrix in
    zip_with fadd state key.

  (** [rescue_f]: rescue.rs:36-59 *)
  Fixpoint rounds (mds_matrix : list (list F)) (r : nat) (keys : list (list F)) (state : list F) : list F :=
    match keys with
    | [] => state
    | key :: keys => rounds mds_matrix (S r) keys (round_ mds_matrix r key state)
    end.
  Definition rescue_f (state : list F) (mds_matrix key_schedule : list (list F)) : list F :=
    match key_schedule with
    | [] => state
    | key :: keys => rounds mds_matrix 0 keys (zip_with fadd state key)
    end.

  (** [generate_key_schedule]: rescue.rs:62-118 *)
  Fixpoint key_rounds (mds_matrix : list (list F)) (r : nat) (constants : list (list F)) (state : list F)
    : list (list F) :=
    match constants with
    | [] => []
    | c :: constants =>
        let state := round_ mds_matrix r c state in
        state :: key_rounds mds_matrix (S r) constants state
    end.
  Definition generate_key_schedule (master_key : list F) (mds_matrix : list (list F)) : list (list F) :=
    let constants := repeat (repeat fone RESCUE_M) (2 * RESCUE_ROUNDS) in
    let state := zip_with fadd master_key (repeat fone RESCUE_M) in
    state :: key_rounds mds_matrix 0 constants state.

  (** [pad]: rescue.rs:120-131 *)
  Definition pad (input : list (option F)) : list F :=
    map (fun o => match o with Some e => e | None => fone end) input.

  (** [state[i] += padded[i]] for [i] below the rate only: rescue.rs:140-142 *)
  Fixpoint add_into (state padded : list F) : list F :=
    match state, padded with
    | s :: state, x :: padded => fadd s x :: add_into state padded
    | _, _ => state
    end.

  (** [rescue_duplex]: rescue.rs:133-151; the new state and the output *)
  Definition rescue_duplex (state : list F) (input : list (option F))
      (mds_matrix key_schedule : list (list F)) : list F * list (option F) :=
    let state := rescue_f (add_into state (pad input)) mds_matrix key_schedule in
    (state, map Some (firstn SPONGE_RATE state)).

  (** [SpongeState]: rescue.rs:153-165; [Rescue]: 167-173 *)
  Inductive SpongeState :=
  | Absorbing (input : list (option F))
  | Squeezing (output : list (option F)).
  Definition empty_block : list (option F) := repeat None SPONGE_RATE.
  Definition sponge_absorb (val : F) : SpongeState :=
    Absorbing (Some val :: repeat None (SPONGE_RATE - 1)).
  Record Rescue := mkRescue {
    sponge : SpongeState; r_state : list F;
    r_mds : list (list F); r_keys : list (list F) }.

  (** [new]: rescue.rs:181-194 *)
  Definition rescue_new : Rescue :=
    let mds_matrix := generate_mds_matrix in
    mkRescue (Absorbing empty_block) (repeat fzero RESCUE_M) mds_matrix
      (generate_key_schedule (repeat fzero RESCUE_M) mds_matrix).

  (** the loop over the free slots: rescue.rs:199-204 ([None]: no slot is free) *)
  Fixpoint fill {A} (val : A) (input : list (option A)) : option (list (option A)) :=
    match input with
    | [] => None
    | None :: input => Some (Some val :: input)
    | Some e :: input => option_map (cons (Some e)) (fill val input)
    end.

  (** [absorb]: rescue.rs:196-216 *)
  Definition absorb (self : Rescue) (val : F) : Rescue :=
    match sponge self with
    | Absorbing input =>
        match fill val input with
        | Some input => mkRescue (Absorbing input) (r_state self) (r_mds self) (r_keys self)
        | None =>
            let (st, _) := rescue_duplex (r_state self) input (r_mds self) (r_keys self) in
            mkRescue (sponge_absorb val) st (r_mds self) (r_keys self)
        end
    | Squeezing _ => mkRescue (sponge_absorb val) (r_state self) (r_mds self) (r_keys self)
    end.

  (** the [take] loop: rescue.rs:230-234 *)
  Fixpoint take_first (output : list (option F)) : option (F * list (option F)) :=
    match output with
    | [] => None
    | Some e :: output => Some (e, None :: output)
    | None :: output => option_map (fun '(e, o) => (e, None :: o)) (take_first output)
    end.

  (** [squeeze]: rescue.rs:218-241.  The [loop] runs at most [fuel] times;
      [None] if that is not enough (three suffice, see the proofs). *)
  Fixpoint squeeze_loop (fuel : nat) (self : Rescue) : option (F * Rescue) :=
    match fuel with
    | O => None
    | S fuel =>
        match sponge self with
        | Absorbing input =>
            let (st, out) := rescue_duplex (r_state self) input (r_mds self) (r_keys self) in
            squeeze_loop fuel (mkRescue (Squeezing out) st (r_mds self) (r_keys self))
        | Squeezing output =>
            match take_first output with
            | Some (e, output) =>
                Some (e, mkRescue (Squeezing output) (r_state self) (r_mds self) (r_keys self))
            | None =>
                squeeze_loop fuel
                  (mkRescue (Absorbing empty_block) (r_state self) (r_mds self) (r_keys self))
            end
        end
    end.
  Definition squeeze (self : Rescue) : option (F * Rescue) := squeeze_loop 3 self.
End Rescue.
Arguments SpongeState F : clear implicits.
Arguments Rescue F : clear implicits.
