(** Rewinding a prover of the whole proof system, and what can be computed from its
    answers. *)
From Coq Require Import ZArith List Arith.
From Verif Require Import Model.FieldTrait Model.Circuits Model.Curve Model.Util Model.Params Model.Opening Model.Proofs
  Spec.CircuitSpec Spec.CurveSpec Spec.UtilSpec Spec.SystemSpec Spec.ProofSpec Spec.VerifySpec Spec.RecursiveCircuitSpec Spec.ExtractSpec.
Import ListNotations.
Open Scope nat_scope.
Open Scope list_scope.

Section Stages.
  Context {C : Curve}.
  Notation F := (Scalar C).
  (** What the prover sends between the challenges, and how it goes on for each of the
      challenges that it is given.  [X] are the points that it sends, [A] is what it
      does in the inner product argument at the end. *)
  Section Parts.
    Variables X A : Type.
    (** after y_new: goes on with z *)
    Record stage3 := Stage3 { s_new_sent : X; rx_sent : F; rxy_sent : F; sx_old_sent : F; sx_cur_sent : F;
      tx_positive_sent : F; tx_negative_sent : F; sx_new_sent : F; with_z : list (F * A) }.
    (** after x: goes on with y_new *)
    Record stage2 := Stage2 { c_sent : X; with_y_new : list (F * stage3) }.
    (** after y: goes on with x *)
    Record stage1 := Stage1 { s_cur_sent : X; t_positive_sent : X; t_negative_sent : X; with_x : list (F * stage2) }.
    (** at the beginning: goes on with y *)
    Record stage0 := Stage0 { r_sent : X; with_y : list (F * stage1) }.
  End Parts.
  (** One conversation: the proof that is made and the (packed) challenges *)
  Definition conversed (T : stage0 C (prover C)) (pf : Proof_ C) (y x yn z : F) (packed : list F) : Prop :=
    exists T1 T2 T3 p ip,
      In (y, T1) (with_y _ _ T) /\ In (x, T2) (with_x _ _ T1) /\ In (yn, T3) (with_y_new _ _ T2) /\ In (z, p) (with_z _ _ T3) /\ run p ip packed /\
      pf = mkProof (r_sent _ _ T) (s_cur_sent _ _ T1) (t_positive_sent _ _ T1) (t_negative_sent _ _ T1) (c_sent _ _ T2) (s_new_sent _ _ T3)
             (rx_sent _ _ T3) (rxy_sent _ _ T3) (sx_old_sent _ _ T3) (sx_cur_sent _ _ T3) (tx_positive_sent _ _ T3) (tx_negative_sent _ _ T3)
             (sx_new_sent _ _ T3) ip.
  (** The prover is given more than 2 n + Q different y; for each of them at least
      10 n - 1 different x; for each of them at least 4 n different y_new; for each of
      them seven different z; and four challenges in each round of the argument. *)
  Definition enough (n Q : nat) (T : stage0 C (prover C)) : Prop :=
    NoDup (map fst (with_y _ _ T)) /\ 2 * n + Q < length (with_y _ _ T) /\ forall y T1, In (y, T1) (with_y _ _ T) ->
    NoDup (map fst (with_x _ _ T1)) /\ 10 * n - 1 <= length (with_x _ _ T1) /\ forall x T2, In (x, T2) (with_x _ _ T1) ->
    NoDup (map fst (with_y_new _ _ T2)) /\ 4 * n <= length (with_y_new _ _ T2) /\ forall yn T3, In (yn, T3) (with_y_new _ _ T2) ->
    NoDup (map (fun zp => get_challenge_scalar (F2 := F) (fst zp)) (with_z _ _ T3)) /\ length (with_z _ _ T3) = 7 /\
    forall z p, In (z, p) (with_z _ _ T3) -> four_ways p.

  (** Scalars only: the challenges, the openings and the final scalars *)
  Definition scalars3 (T : stage3 C (prover C)) : stage3 unit (nat -> answers C) :=
    Stage3 _ _ tt (rx_sent _ _ T) (rxy_sent _ _ T) (sx_old_sent _ _ T) (sx_cur_sent _ _ T) (tx_positive_sent _ _ T) (tx_negative_sent _ _ T) (sx_new_sent _ _ T)
      (map (fun '(z, p) => (z, fun j => answers_of j p)) (with_z _ _ T)).
  Definition scalars2 (T : stage2 C (prover C)) : stage2 unit (nat -> answers C) :=
    Stage2 _ _ tt (map (fun '(yn, T3) => (yn, scalars3 T3)) (with_y_new _ _ T)).
  Definition scalars1 (T : stage1 C (prover C)) : stage1 unit (nat -> answers C) :=
    Stage1 _ _ tt tt tt (map (fun '(x, T2) => (x, scalars2 T2)) (with_x _ _ T)).
  Definition scalars0 (T : stage0 C (prover C)) : stage0 unit (nat -> answers C) :=
    Stage0 _ _ tt (map (fun '(y, T1) => (y, scalars1 T1)) (with_y _ _ T)).

  (** What one conversation has to pass: the five claims, with equality ([verified]
      without the transcript); the check of the new leftovers; the equation between
      the openings.  [k] are the coefficients of the polynomial of the public inputs,
      and [K] its commitment. *)
  Definition convinced (P : Params C) (circuit : Var -> CS F unit) (K : C) (k : list F) (L : Leftovers C)
      (pf : Proof_ C) (y x yn z : F) (packed : list F) : Prop :=
    well_formed_proof (p_k P) pf L /\
    (exists gx claims, let ky := eval_at k y in
       powers_fold_to (challenges_sq_packed_new L) x gx /\
       five_claims K pf L ky gx y x yn (get_challenge_scalar z) claims /\
       forall j claim a, nth_error claims j = Some claim -> nth_error (mo_a (pf_inner_product pf)) j = Some a ->
         claim_holds (mo_g (pf_inner_product pf)) (mo_rounds (pf_inner_product pf)) packed j claim a) /\
    honest_leftovers P circuit (mkLeft (pf_s_new_commitment pf) yn (mo_g (pf_inner_product pf)) packed) /\
    exists D xi yi, d_x D = x /\ d_y_cur D = y /\ d_ky_opening D = eval_at k y /\
      d_tx_positive_opening D = pf_tx_positive_opening pf /\ d_tx_negative_opening D = pf_tx_negative_opening pf /\
      d_sx_cur_opening D = pf_sx_cur_opening pf /\ d_rx_opening D = pf_rx_opening pf /\ d_rxy_opening D = pf_rxy_opening pf /\
      fmul x xi = fone /\ fmul y yi = fone /\ deferred_equation (p_n P) D xi yi.

  (** What is computed: the values of the wires, or a relation between the generators *)
  Inductive found := Witness (a b c : list F) | Related (z : list F).
  Definition sound_for (generators : list C) (t : layout F) (values : list F) (o : found) : Prop :=
    match o with
    | Witness a b c => gates_satisfied (l_gates t) a b c /\ lcs_satisfied (l_lcs t) (l_inputs t) values a b c
    | Related z => relation generators z
    end.
End Stages.
Arguments found C : clear implicits.
Arguments stage0 C X A : clear implicits.
Arguments stage1 C X A : clear implicits.
Arguments stage2 C X A : clear implicits.
Arguments stage3 C X A : clear implicits.
