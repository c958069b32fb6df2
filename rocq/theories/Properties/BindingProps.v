(** C76: commitments are binding, and linear.  Two commitments made with the same
    parameters are the same point only if they are commitments to the same
    coefficients, or the coefficients give a relation between the generators (and then
    they are the same point).  A commitment to a mixture of two polynomials is the
    mixture of the commitments.  And a commitment cannot be opened in two ways: from
    provers that convince the verifier of two values at one point, a relation between
    the generators is computed. *)
From Coq Require Import ZArith List Bool Arith Lia.
From Verif Require Import Model.FieldTrait Model.FieldInst Model.Curve Model.Threads Model.Util Model.Rescue Model.Params Model.Opening
  Spec.FieldSpec Spec.FieldLaws Spec.CurveSpec Spec.CurveLaws Spec.UtilSpec Spec.SystemSpec Spec.ProofSpec Spec.VerifySpec Spec.RecursiveCircuitSpec Spec.ExtractSpec Spec.BindingSpec
  Proofs.CurveInst Proofs.CurveTop Proofs.UtilTop Proofs.OpeningP Proofs.OpeningTop Proofs.VerifyP Proofs.ExtractP Proofs.BindingP
  Properties.ProverProps Properties.OpeningProps Properties.VerifyProps Properties.ExtractProps.
Import ListNotations.
Open Scope nat_scope.
Open Scope list_scope.

Theorem C76_binding : forall C r, halo_curve C r -> forall M M' (P : Params C) v e v' e' D D', machine_ok M -> machine_ok M' ->
  Forall valid (p_generators P) -> (Z.of_nat (length (p_generators P)) < 2 ^ 32)%Z ->
  commit M P v e = Some D -> commit M' P v' e' = Some D' ->
  let n := length (p_generators P) in
  same_point D D' <-> placed n e v = placed n e' v' \/ relation (p_generators P) (difference (placed n e v) (placed n e' v')).
Proof. intros C r [|] M M' P v e v' e' D D' HM HM' HV HL H H'; [exact (binding Ec0_laws M M' P v e v' e' D D' HM HM' HV HL H H')|exact (binding Ec1_laws M M' P v e v' e' D D' HM HM' HV HL H H')]. Qed.

Theorem C76_linear : forall C r, halo_curve C r -> forall M M' M'' (P : Params C) v v' e D D' s t, machine_ok M -> machine_ok M' -> machine_ok M'' ->
  Forall valid (p_generators P) -> (Z.of_nat (length (p_generators P)) < 2 ^ 32)%Z -> length v = length v' ->
  commit M P v e = Some D -> commit M' P v' e = Some D' ->
  exists E, commit M'' P (mixture s t v v') e = Some E /\ same_point E (c_add (c_mul D s) (c_mul D' t)).
Proof. intros C r [|] M M' M'' P v v' e D D' s t HM HM' HM2 HV HL E H H'; [exact (linear Ec0_laws M M' M'' P v v' e D D' s t HM HM' HM2 HV HL E H H')|exact (linear Ec1_laws M M' M'' P v v' e D D' s t HM HM' HM2 HV HL E H H')]. Qed.

Theorem C76_evaluations : forall C r, halo_curve C r -> exists break : answers C -> answers C -> list (Scalar C),
  forall (generators : list C) k claim claim' p p', Forall valid generators -> length generators = 2 ^ k ->
  same_point (po_commitment claim) (po_commitment claim') -> po_point claim = po_point claim' -> po_opening claim <> po_opening claim' ->
  convinces generators k claim p -> convinces generators k claim' p' ->
  relation generators (break (answers_of 0 p) (answers_of 0 p')).
Proof.
  intros C r HC. destruct (C71_extract C r HC) as (extract & X).
  exists (fun a a' => match extract a, extract a' with
                      | Relation z, _ => z
                      | _, Relation z => z
                      | Coefficients v, Coefficients v' => difference v v'
                      end).
  intros gens k claim claim' p p' HV HL HS EP NO [H4 HR] [H4' HR'].
  assert (one : forall c q, four_ways q -> valid (po_commitment c) -> (forall pf packed, run q pf packed -> well_formed 1 k pf /\ folds_to gens packed (mo_g pf) /\
    forall a, nth_error (mo_a pf) 0 = Some a -> claim_holds (mo_g pf) (mo_rounds pf) packed 0 c a) -> right_for gens c (extract (answers_of 0 q))).
  { intros c q Q4 Vc QR. apply (X gens k [c] q HV HL); [constructor; [exact Vc|constructor]|exact Q4| |reflexivity].
    intros pf packed H. destruct (QR pf packed H) as (W & Fo & Cl). split; [exact W|]. split; [exact Fo|].
    intros [|[|j]] c' a Hj Ha; try discriminate Hj. injection Hj as <-. exact (Cl a Ha). }
  assert (V : valid (po_commitment claim) /\ valid (po_commitment claim')) by (destruct HS as (A & RA & RA'); split; exists A; assumption).
  destruct V as [V V']. pose proof (one claim p H4 V HR) as R. pose proof (one claim' p' H4' V' HR') as R'. clear one X HR HR'.
  destruct (extract (answers_of 0 p)) as [v|z]; [|exact R]. destruct (extract (answers_of 0 p')) as [v'|z]; [|exact R'].
  destruct R as [L T], R' as [L' T'].
  destruct HC; [exact (different_values Ec0_laws gens claim claim' v v' HV L L' T T' HS EP NO)|exact (different_values Ec1_laws gens claim claim' v v' HV L L' T T' HS EP NO)].
Qed.

(** *** The hypotheses are met.  With the generators G and 2 G, the polynomials 2 and X
    have the same commitment, and honest provers convince the verifier of their two
    values at 1: the generators must be without known relations. *)
Example C76_collision : forall C r, halo_curve C r -> forall M (P : Params C) g, machine_ok M -> valid g -> p_generators P = [g; c_double g] ->
  exists D D', commit M P [fadd fone fone] false = Some D /\ commit M P [fone] true = Some D' /\ same_point D D'.
Proof. intros C r [|] M P g HM HV EG; [exact (doubled_commit Ec0_laws M P g HM HV EG)|exact (doubled_commit Ec1_laws M P g HM HV EG)]. Qed.
Example C76_nonvacuous : forall C r, halo_curve C r -> forall g : C, valid g -> exists claim claim' p p',
  let generators := [g; c_double g] in
  Forall valid generators /\ same_point (po_commitment claim) (po_commitment claim') /\ po_point claim = po_point claim' /\ po_opening claim <> po_opening claim' /\
  convinces generators 1 claim p /\ convinces generators 1 claim' p'.
Proof.
  intros C r HC g Hg.
  assert (HV : Forall valid [g; c_double g]).
  { constructor; [exact Hg|]. constructor; [|constructor]. destruct HC.
    - destruct (valid_ex Ec0_laws g Hg) as (h & Hh). exact (rep_valid Ec0_laws _ _ (rep_double Ec0_laws _ _ Hh)).
    - destruct (valid_ex Ec1_laws g Hg) as (h & Hh). exact (rep_valid Ec1_laws _ _ (rep_double Ec1_laws _ _ Hh)). }
  destruct (C71_nonvacuous C r HC [g; c_double g] 1 [fadd fone fone; fzero] fone HV eq_refl (le_n 1) eq_refl) as (claim & p & E & T & _ & F4 & _ & R).
  destruct (C71_nonvacuous C r HC [g; c_double g] 1 [fzero; fone] fone HV eq_refl (le_n 1) eq_refl) as (claim' & p' & E' & T' & _ & F4' & _ & R').
  exists claim, claim', p, p'. split; [exact HV|].
  split; [destruct HC; [exact (doubled_same Ec0_laws claim claim' g Hg T T')|exact (doubled_same Ec1_laws claim claim' g Hg T T')]|].
  split; [congruence|].
  split; [destruct HC; [exact (doubled_differ Ec0_laws claim claim' g Hg T T' E E')|exact (doubled_differ Ec1_laws claim claim' g Hg T T' E E')]|].
  split; (split; [assumption|]).
  - intros pf packed H. destruct (R pf packed H) as (A & B & D). split; [exact A|]. split; [exact B|]. intros a Ha. exact (D 0 claim a eq_refl Ha).
  - intros pf packed H. destruct (R' pf packed H) as (A & B & D). split; [exact A|]. split; [exact B|]. intros a Ha. exact (D 0 claim' a eq_refl Ha).
Qed.

Print Assumptions C76_binding.
Print Assumptions C76_linear.
Print Assumptions C76_evaluations.
Print Assumptions C76_collision.
Print Assumptions C76_nonvacuous.
