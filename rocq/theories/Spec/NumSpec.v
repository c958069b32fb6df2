(** What numbers, [Num]s and [Combination]s denote under an assignment. *)
From Coq Require Import List ZArith.
From Verif Require Import Model.FieldTrait Model.Circuits Model.Num Spec.CircuitSpec.
Import ListNotations.

Section NumSpec.
  Context {F : Field}.
  Implicit Types (w : assignment F).

  Definition num_val w (n : AllocatedNum F) : F := w (num_var n).
  Definition n_val w (n : Num F) : F :=
    match n with
    | NConstant c => coeff_val c
    | NAllocated c a => fmul (coeff_val c) (num_val w a)
    end.
  Fixpoint sum_val w (ts : list (Num F)) : F :=
    match ts with [] => fzero | t :: ts => fadd (n_val w t) (sum_val w ts) end.
  Definition comb_val w (c : Combination F) : F := sum_val w (comb_terms c).

  (** The value hints carried by the prover agree with the assignment. *)
  Definition num_ok w (n : AllocatedNum F) : Prop := num_value n = Some (num_val w n).
  Definition n_ok w (n : Num F) : Prop := n_value n = Some (n_val w n).
  Definition comb_ok w (c : Combination F) : Prop := comb_value c = Some (comb_val w c).

  (** A combination all of whose terms are constants carries their sum. *)
  Definition constant_term (n : Num F) : Prop :=
    match n with NConstant _ => True | NAllocated _ _ => False end.
  Definition comb_wf (c : Combination F) : Prop :=
    Forall constant_term (comb_terms c) ->
    forall w, comb_value c = Some (comb_val w c).

  Definition pow5 (x : F) : F := fmul (fmul (fmul (fmul x x) x) x) x.
End NumSpec.
