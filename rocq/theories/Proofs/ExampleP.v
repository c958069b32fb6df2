(** A small circuit: the public input is the square of a witness.  It is laid out
    as two gates and three constraints, and a right witness satisfies it. *)
From Coq Require Import ZArith String List Bool Arith Lia Ring Field.
From Verif Require Import Model.FieldTrait Model.Circuits Spec.FieldLaws Spec.CircuitSpec Spec.UtilSpec Spec.SystemSpec Proofs.FieldGen.
Import ListNotations.
Open Scope nat_scope.
Open Scope list_scope.

Section Square.
  Context {F : Field}.
  Definition square_circuit (w : res F) (one : Var) : CS F unit :=
    AllocInput "out"%string (match w with Ok x => Ok (fmul x x) | Err e => Err e end) (fun r =>
    match r with
    | Err e => Ret (Err e)
    | Ok (out, _) =>
        Multiply "mul"%string (match w with Ok x => Ok (x, x, fmul x x) | Err e => Err e end) (fun r =>
        match r with
        | Err e => Ret (Err e)
        | Ok (a, b, c, _) =>
            EnforceZero [(a, COne); (b, CNegOne)] (EnforceZero [(c, COne); (out, CNegOne)] (Ret (Ok tt)))
        end)
    end).
  Definition square_lcs : list (LC F) := [[(VA 1, COne)]; [(VB 1, COne)]; [(VA 2, COne); (VB 2, CNegOne)]; [(VC 2, COne); (VB 1, CNegOne)]].
  Lemma square_false w : laid_out false (square_circuit w) (mkLayout None 2 square_lcs [1; 2] [fzero; fzero] [fzero; fzero] [fzero; fzero] [fmul fzero fzero; fzero]).
  Proof. reflexivity. Qed.
  Definition square_layout (x : F) : layout F :=
    mkLayout None 2 square_lcs [1; 2] [fone; fmul x x] [fone; x] [fmul x x; x] [fmul fone (fmul x x); fmul x x].
  Lemma square_true x : laid_out true (square_circuit (Ok x)) (square_layout x).
  Proof. reflexivity. Qed.
  Context {p v} (OL : OpsLaws F p v).
  Add Ring Fe : (fring OL).
  Lemma square_satisfied x : satisfied (square_layout x).
  Proof.
    split.
    - intros i Hi. cbn [l_gates square_layout] in Hi. assert (i = 1 \/ i = 2) as [-> | ->] by lia; unfold wire; cbn; ring.
    - intros q lc Hq Hq1. cbn [l_lcs square_layout square_lcs] in Hq.
      destruct q as [|[|[|[|[|q]]]]]; try lia; cbn in Hq; try (injection Hq as <-; cbn; unfold wire; cbn; ring).
      destruct q; discriminate Hq.
  Qed.
End Square.
