(** src/gadgets/rescue.rs: the sponge as a circuit. *)
From Coq Require Import String List Bool ZArith.
From Verif Require Import Model.FieldTrait Model.Circuits Model.Num Model.Rescue.
Import ListNotations.
Open Scope string_scope.
Open Scope list_scope.
Open Scope nat_scope.
Open Scope cs_scope.

Section RescueGadget.
  Context {F : Field}.
  (** [CS::ONE] *)
  Variable one : Var.

  (** the S-box layer: gadgets/rescue.rs:19-29, 72-82.  (Arguments: round and entries.) *)
  Definition sbox_layer (r : nat) (state : list (Combination F)) : CS F (list (Num F)) :=
    mapM (fun entry =>
      if r mod 2 =? 0 then namespace "round s-box 1" (comb_rescue_invalpha one entry)
      else namespace "round s-box 2" (comb_rescue_alpha one entry)) state.

  (** one row of the linear layer: gadgets/rescue.rs:35-39, 88-92 *)
  Definition mds_row (row : list F) (mid : list (Num F)) (key : Num F) : Combination F :=
    comb_add_n
      (fold_left (fun sum '(coeff, entry) => comb_add_cn sum (CFull coeff) entry)
         (combine row mid) (comb_from (n_constant fzero)))
      key.
  (** the linear layer: gadgets/rescue.rs:31-40, 84-93 *)
  Definition mds_layer (mds_matrix : list (list F)) (mid keys : list (Num F)) : list (Combination F) :=
    zip_with (fun row key => mds_row row mid key) mds_matrix keys.

  (** [rescue_f]: gadgets/rescue.rs:9-44 *)
  Fixpoint g_rounds (mds_matrix : list (list F)) (r : nat) (keys : list (list (Num F)))
      (state : list (Combination F)) : CS F (list (Combination F)) :=
    match keys with
    | [] => ret state
    | key :: keys =>
        mid <- sbox_layer r state ;;
        g_rounds mds_matrix (S r) keys (mds_layer mds_matrix mid key)
    end.
  Definition g_rescue_f (state : list (Combination F)) (mds_matrix : list (list F))
      (key_schedule : list (list (Num F))) : CS F (list (Combination F)) :=
    match key_schedule with
    | [] => ret state
    | key :: keys => g_rounds mds_matrix 0 keys (zip_with (fun entry key => comb_add_n entry key) state key)
    end.

  (** [generate_key_schedule]: gadgets/rescue.rs:47-132 *)
  Definition evaluate_all (state : list (Combination F)) : CS F (list (Num F)) :=
    mapM (fun c => namespace "key [r, i]" (comb_evaluate one c)) state.
  Fixpoint g_key_rounds (mds_matrix : list (list F)) (r : nat) (constants : list (list (Num F)))
      (state : list (Combination F)) : CS F (list (list (Num F))) :=
    match constants with
    | [] => ret []
    | c :: constants =>
        mid <- sbox_layer r state ;;
        let state := mds_layer mds_matrix mid c in
        key <- evaluate_all state ;;
        keys <- g_key_rounds mds_matrix (S r) constants state ;;
        ret (key :: keys)
    end.
  Definition g_generate_key_schedule (master_key : list (Num F)) (mds_matrix : list (list F))
    : CS F (list (list (Num F))) :=
    let constant := repeat (n_constant (@fone F)) RESCUE_M in
    let state := zip_with (fun e k => comb_add_n (comb_from e) k) master_key constant in
    key <- evaluate_all state ;;
    keys <- g_key_rounds mds_matrix 0 (repeat constant (2 * RESCUE_ROUNDS)) state ;;
    ret (key :: keys).

  (** [pad]: gadgets/rescue.rs:134-158 *)
  Definition g_pad (input : list (option (Num F))) : CS F (list (Num F)) :=
    o <- namespace "TODO remove this" (num_alloc (Ok fone)) ;;
    enforce_zero (lc_sub_v (num_lc o) one) ;;;
    ret (map (fun i => match i with Some e => e | None => n_from o end) input).

  (** the additions of [rescue_duplex], on the rate part only: gadgets/rescue.rs:167-172 *)
  Fixpoint g_add_into (state : list (Combination F)) (padded : list (Num F)) : list (Combination F) :=
    match state, padded with
    | s :: state, x :: padded => comb_add_n s x :: g_add_into state padded
    | _, _ => state
    end.

  (** [rescue_duplex]: gadgets/rescue.rs:160-177 *)
  Definition g_rescue_duplex (state : list (Combination F)) (input : list (option (Num F)))
      (mds_matrix : list (list F)) (key_schedule : list (list (Num F))) : CS F (list (Combination F)) :=
    padded <- namespace "pad input" (g_pad input) ;;
    g_rescue_f (g_add_into state padded) mds_matrix key_schedule.

  (** [SpongeState]: gadgets/rescue.rs:179-190; [RescueGadget]: 192-197 *)
  Inductive GSpongeState :=
  | GAbsorbing (input : list (option (Num F)))
  | GSqueezing (squeezed : list bool).
  Definition g_empty : list (option (Num F)) := repeat None SPONGE_RATE.
  Definition g_sponge_absorb (val : Num F) : GSpongeState :=
    GAbsorbing (Some val :: repeat None (SPONGE_RATE - 1)).
  Record RescueGadget := mkGadget {
    g_sponge : GSpongeState; g_state : list (Combination F);
    g_mds : list (list F); g_keys : list (list (Num F)) }.

  (** [new]: gadgets/rescue.rs:200-229 *)
  Definition gadget_new : CS F RescueGadget :=
    let mds_matrix := generate_mds_matrix in
    keys <- g_generate_key_schedule (repeat (n_constant fzero) RESCUE_M) mds_matrix ;;
    ret (mkGadget (GAbsorbing g_empty) (repeat (comb_from (n_constant fzero)) RESCUE_M) mds_matrix keys).

  (** [absorb]: gadgets/rescue.rs:231-263 *)
  Definition gadget_absorb (self : RescueGadget) (val : Num F) : CS F RescueGadget :=
    match g_sponge self with
    | GAbsorbing input =>
        match fill val input with
        | Some input => ret (mkGadget (GAbsorbing input) (g_state self) (g_mds self) (g_keys self))
        | None =>
            st <- g_rescue_duplex (g_state self) input (g_mds self) (g_keys self) ;;
            ret (mkGadget (g_sponge_absorb val) st (g_mds self) (g_keys self))
        end
    | GSqueezing _ => ret (mkGadget (g_sponge_absorb val) (g_state self) (g_mds self) (g_keys self))
    end.

  (** the search for the first unsqueezed entry: gadgets/rescue.rs:283-286.  The
      result is its index. *)
  Fixpoint first_unsqueezed (squeezed : list bool) (i : nat) : option nat :=
    match squeezed with
    | [] => None
    | false :: _ => Some i
    | true :: squeezed => first_unsqueezed squeezed (S i)
    end.
  Definition list_set {A} (l : list A) (i : nat) (x : A) : list A := firstn i l ++ x :: skipn (S i) l.

  (** [squeeze]: gadgets/rescue.rs:265-313.  At most [fuel] iterations of the
      [loop]; the model panics if that is not enough (three suffice). *)
  Fixpoint gadget_squeeze_loop (fuel : nat) (self : RescueGadget)
    : CS F (AllocatedNum F * RescueGadget) :=
    match fuel with
    | O => Panic
    | S fuel =>
        match g_sponge self with
        | GAbsorbing input =>
            st <- namespace "rescue" (g_rescue_duplex (g_state self) input (g_mds self) (g_keys self)) ;;
            gadget_squeeze_loop fuel
              (mkGadget (GSqueezing (repeat false SPONGE_RATE)) st (g_mds self) (g_keys self))
        | GSqueezing squeezed =>
            match first_unsqueezed squeezed 0 with
            | Some i =>
                entry <- unwrap (nth_error (g_state self) i) ;;
                out <- namespace "squeezed element" (num_alloc (ok_or_missing (comb_value entry))) ;;
                enforce_zero (lc_sub_lc (num_lc out) (comb_lc one entry)) ;;;
                ret (out, mkGadget (GSqueezing (list_set squeezed i true))
                            (list_set (g_state self) i (comb_from_num out)) (g_mds self) (g_keys self))
            | None =>
                gadget_squeeze_loop fuel
                  (mkGadget (GAbsorbing g_empty) (g_state self) (g_mds self) (g_keys self))
            end
        end
    end.
  Definition gadget_squeeze (self : RescueGadget) : CS F (AllocatedNum F * RescueGadget) :=
    gadget_squeeze_loop 3 self.
End RescueGadget.
Arguments GSpongeState F : clear implicits.
Arguments RescueGadget F : clear implicits.
