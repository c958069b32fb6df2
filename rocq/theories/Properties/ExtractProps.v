(** C71: the inner product argument proves what it claims (special soundness).
    From a prover that convinces the verifier with four challenges in every round, the
    polynomial behind each commitment is computed, or a relation between the
    generators.  What is computed depends on the challenges and the final scalars
    only, not on the points: [extract] is fixed before the generators, the
    commitments and the messages. *)
From Coq Require Import ZArith List Bool Arith Lia.
From Verif Require Import Model.FieldTrait Model.FieldInst Model.Curve Model.Util Model.Rescue Model.Params Model.Opening
  Spec.FieldSpec Spec.FieldLaws Spec.CurveSpec Spec.CurveLaws Spec.UtilSpec Spec.SystemSpec Spec.ProofSpec Spec.VerifySpec Spec.RecursiveCircuitSpec Spec.ExtractSpec
  Proofs.CurveInst Proofs.CurveTop Proofs.OpeningP Proofs.OpeningTop Proofs.VerifyP Proofs.ExtractP Proofs.ExtractHonestP Properties.ProverProps Properties.VerifyProps.
Import ListNotations.
Open Scope nat_scope.
Open Scope list_scope.

(** Every conversation satisfies the equations of the claims, and its final generator
    is the fold of the generators (what [Leftovers::verify] checks). *)
Theorem C71_extract : forall C r, halo_curve C r -> exists extract : answers C -> extracted C,
  forall (generators : list C) k claims p, Forall valid generators -> length generators = 2 ^ k ->
  Forall (fun i => valid (po_commitment i)) claims -> four_ways p ->
  (forall pf packed, run p pf packed -> well_formed (length claims) k pf /\ folds_to generators packed (mo_g pf) /\
     forall j claim a, nth_error claims j = Some claim -> nth_error (mo_a pf) j = Some a ->
       claim_holds (mo_g pf) (mo_rounds pf) packed j claim a) ->
  forall j claim, nth_error claims j = Some claim -> right_for generators claim (extract (answers_of j p)).
Proof.
  assert (X : forall C q vb r vs (CL : CurveLaws C q vb r vs), exists extract : answers C -> extracted C,
    forall (generators : list C) k claims p, Forall valid generators -> length generators = 2 ^ k ->
    Forall (fun i => valid (po_commitment i)) claims -> four_ways p ->
    (forall pf packed, run p pf packed -> well_formed (length claims) k pf /\ folds_to generators packed (mo_g pf) /\
       forall j claim a, nth_error claims j = Some claim -> nth_error (mo_a pf) j = Some a ->
         claim_holds (mo_g pf) (mo_rounds pf) packed j claim a) ->
    forall j claim, nth_error claims j = Some claim -> right_for generators claim (extract (answers_of j p))).
  { intros C q vb r vs CL. exists (ExtractP.extract (r := r)). intros gens k claims p HV HL HC H4 HR j claim Hj.
    apply (extract_right CL gens (length claims) k p j claim HV HL).
    - exact (proj1 (Forall_forall _ _) HC claim (nth_error_In _ _ Hj)).
    - apply nth_error_Some. congruence.
    - exact H4.
    - intros pf packed H. destruct (HR pf packed H) as (H1 & H2 & H3). split; [exact H1|]. split; [exact H2|]. intros a Ha. exact (H3 j claim a Hj Ha). }
  intros C r [|]; [exact (X _ _ _ _ _ Ec0_laws)|exact (X _ _ _ _ _ Ec1_laws)].
Qed.

(** The same in terms of [verify_proof], which accepts a claim also if the left side
    of its equation is the point at infinity (C56): this case is excluded. *)
Theorem C71_accepted : forall C r, halo_curve C r -> exists extract : answers C -> extracted C,
  forall (generators : list C) k claims p, Forall valid generators -> length generators = 2 ^ k ->
  Forall (fun i => valid (po_commitment i)) claims -> four_ways p ->
  (forall pf packed, run p pf packed -> well_formed (length claims) k pf /\ folds_to generators packed (mo_g pf) /\
     (exists t forks t', reached t /\ verify_proof pf t claims k = Done (true, packed, mo_g pf, forks, t')) /\
     forall j claim A, nth_error claims j = Some claim -> left_side (mo_rounds pf) packed j claim A -> A <> infinity) ->
  forall j claim, nth_error claims j = Some claim -> right_for generators claim (extract (answers_of j p)).
Proof.
  intros C r HC. destruct (C71_extract C r HC) as (extract & X). exists extract. intros gens k claims p HV HL HV' H4 HR.
  apply (X gens k claims p HV HL HV' H4). intros pf packed H. destruct (HR pf packed H) as (H1 & H2 & (t & forks & t' & Ht & E) & HI).
  split; [exact H1|]. split; [exact H2|]. intros j claim a Hj Ha.
  destruct (C56_opening_exact C r HC pf t claims k H1 Ht HV') as [[Y _]|(b & packed' & forks' & t'' & Y & _ & HB)]; [congruence|].
  assert (b = true) as -> by congruence. assert (packed' = packed) as -> by congruence.
  destruct (proj1 HB eq_refl j claim a Hj Ha) as (cs & cis & Ls & Rs & ls & rs & A & B & b & K1 & K2 & K3 & K4 & K5 & K6 & K7 & K8 & K9 & K10 & K11).
  destruct K9 as [K9|K9]; [exfalso; apply (HI j claim A Hj); [|exact K9]|].
  - exists cs, cis, Ls, Rs. repeat (split; [assumption|]). exact K7.
  - subst B. exists cs, cis, Ls, Rs, ls, rs, A, b. repeat (split; [assumption|]). exact K11.
Qed.

(** *** The hypotheses are met: for every true claim, with any number of rounds, there
    is such a prover (the honest one), with challenges that a transcript can produce *)
Example C71_nonvacuous : forall C r, halo_curve C r -> forall (generators : list C) k v x, Forall valid generators -> length generators = 2 ^ k -> 1 <= k -> length v = 2 ^ k ->
  exists claim p, po_point claim = x /\ true_claim generators claim v /\ Forall (fun i => valid (po_commitment i)) [claim] /\ four_ways p /\
    (exists pf packed, run p pf packed /\ Forall (fun c => 2 ^ 127 <= le_val (f_to_bytes c) < 2 ^ 128)%Z packed) /\
    (forall pf packed, run p pf packed -> well_formed 1 k pf /\ folds_to generators packed (mo_g pf) /\
       forall j claim' a, nth_error [claim] j = Some claim' -> nth_error (mo_a pf) j = Some a ->
         claim_holds (mo_g pf) (mo_rounds pf) packed j claim' a).
Proof.
  assert (X : forall C q vb r vs (CL : CurveLaws C q vb r vs) (generators : list C) k v x, Forall valid generators -> length generators = 2 ^ k -> 1 <= k -> length v = 2 ^ k ->
    exists claim p, po_point claim = x /\ true_claim generators claim v /\ Forall (fun i => valid (po_commitment i)) [claim] /\ four_ways p /\
      (exists pf packed, run p pf packed /\ Forall (fun c => 2 ^ 127 <= le_val (f_to_bytes c) < 2 ^ 128)%Z packed) /\
      (forall pf packed, run p pf packed -> well_formed 1 k pf /\ folds_to generators packed (mo_g pf) /\
         forall j claim' a, nth_error [claim] j = Some claim' -> nth_error (mo_a pf) j = Some a ->
           claim_holds (mo_g pf) (mo_rounds pf) packed j claim' a)).
  { intros C q vb r vs CL gens k v x HV HL Hk Hv. destruct (four_packed CL) as (packed & c & ci & H0 & H1 & H2 & H3).
    destruct (honest_meets CL packed c ci H1 H2 H3 k gens v x false Hk HV HL Hv) as (A1 & A2 & A3 & A4).
    eexists _, _. split; [|split; [exact A2|]]; [reflexivity|]. split; [repeat constructor; exact A1|]. split; [exact A3|]. split.
    - clear A2 A3 A4. generalize (powers x (2 ^ k)) as b. clear - H0 CL. revert gens v. induction k as [|k IH]; intros gens v b; cbn [honest].
      + eexists _, _. split; constructor.
      + edestruct (IH) as ([rounds a g] & pks & R1 & R2). eexists _, _. split; [apply run_round with (b := B1); exact R1|].
        constructor; [|exact R2]. destruct (fl_to_bytes _ _ _ (cl_scalar _ _ _ _ _ CL) (packed B1)) as (_ & _ & ->). rewrite H0. split; [discriminate|reflexivity].
    - intros pf pks HR. destruct (A4 pf pks HR) as (B1' & B2' & B3'). split; [exact B1'|]. split; [exact B2'|].
      intros [|[|j]] claim' a Hj Ha; try discriminate Hj. injection Hj as <-. exact (B3' a Ha). }
  intros C r [|]; [exact (X _ _ _ _ _ Ec0_laws)|exact (X _ _ _ _ _ Ec1_laws)].
Qed.

Print Assumptions C71_extract.
Print Assumptions C71_accepted.
Print Assumptions C71_nonvacuous.
