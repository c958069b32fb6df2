(** Rewinding a prover of the inner product argument, and what can be computed
    from its answers. *)
From Coq Require Import ZArith List Arith.
From Verif Require Import Model.FieldTrait Model.Curve Model.Util Model.Params Model.Opening
  Spec.CurveSpec Spec.UtilSpec Spec.ProofSpec Spec.VerifySpec.
Import ListNotations.
Open Scope nat_scope.
Open Scope list_scope.

(** Each challenge is replaced three times. *)
Inductive branch := B1 | B2 | B3 | B4.

Section Rewinding.
  Context {C : Curve}.
  Notation F := (Scalar C).
  (** A prover: either it ends with the final scalars and the final generator, or it
      sends the messages of a round and goes on, in one of four ways, according to the
      (packed) challenge that it gets. *)
  Inductive prover :=
  | Ends (a : list F) (g : C)
  | Sends (round : InnerProductRound C) (packed : branch -> F) (next : branch -> prover).
  (** One conversation: the argument that is made and the challenges of its rounds *)
  Inductive run : prover -> MultiPolynomialOpening C -> list F -> Prop :=
  | run_end a g : run (Ends a g) (mkMulti [] a g) []
  | run_round round packed next b rounds a g packeds :
      run (next b) (mkMulti rounds a g) packeds ->
      run (Sends round packed next) (mkMulti (round :: rounds) a g) (packed b :: packeds).
  (** The four challenges of each round are different scalars. *)
  Inductive four_ways : prover -> Prop :=
  | four_end a g : four_ways (Ends a g)
  | four_round round packed next :
      (forall b b', b <> b' -> get_challenge_scalar (F2 := F) (packed b) <> get_challenge_scalar (packed b')) ->
      (forall b, four_ways (next b)) -> four_ways (Sends round packed next).

  (** Scalars only: the challenges and the final scalars for one claim *)
  Inductive answers :=
  | Answer (a : F)
  | Answers (packed : branch -> F) (next : branch -> answers).
  Fixpoint answers_of (j : nat) (p : prover) : answers :=
    match p with
    | Ends a _ => Answer (nth j a fzero)
    | Sends _ packed next => Answers packed (fun b => answers_of j (next b))
    end.

  (** What is computed from them: the coefficients of a polynomial, or a relation
      between the generators *)
  Inductive extracted := Coefficients (v : list F) | Relation (z : list F).
  (** a sum of multiples of the generators that is the point at infinity, not all
      factors being 0 *)
  Definition relation (generators : list C) (z : list F) : Prop :=
    length z = length generators /\ ~ Forall (eq fzero) z /\ combination z generators infinity.
  Definition right_for (generators : list C) (claim : PolynomialOpening C) (e : extracted) : Prop :=
    match e with
    | Coefficients v => length v = length generators /\ true_claim generators claim v
    | Relation z => relation generators z
    end.

  (** The left side of the equation between points, for the j-th claim *)
  Definition left_side (rounds : list (InnerProductRound C)) (packed : list F) (j : nat) (claim : PolynomialOpening C) (A : point (Base C)) : Prop :=
    exists cs cis Ls Rs,
      Forall2 (fun pk c => f_sqrt (get_challenge_scalar pk) = Some c) packed cs /\
      Forall2 (fun c ci => fmul c ci = fone) cs cis /\
      Forall2 (fun round L => nth_error (ip_L round) j = Some L) rounds Ls /\
      Forall2 (fun round R => nth_error (ip_R round) j = Some R) rounds Rs /\
      combination (fone :: squares cs ++ squares cis) (po_commitment claim :: Ls ++ Rs) A.
End Rewinding.
Arguments prover C : clear implicits.
Arguments answers C : clear implicits.
Arguments extracted C : clear implicits.
