(** C64: what [RecursiveProof::verify] (src/recursion.rs) checks, for arbitrary proofs.
    The notions are in Spec/AcceptSpec.v and Spec/VerifySpec.v. *)
From Coq Require Import ZArith List Bool Arith Lia.
From Verif Require Import Model.FieldTrait Model.FieldInst Model.Circuits Model.Boolean Model.Curve Model.Threads Model.Util Model.Rescue Model.Params
  Model.Opening Model.Proofs Model.Recursion Model.RecursiveProof
  Spec.CircuitSpec Spec.CurveSpec Spec.UtilSpec Spec.SystemSpec Spec.ProofSpec Spec.VerifySpec Spec.UniformSpec Spec.ChainSpec Spec.AcceptSpec
  Spec.CurveLaws Proofs.FpFq Proofs.CurveInst Proofs.ProverTop Proofs.ChainP Proofs.AcceptP Properties.ChainProps.
Import ListNotations.
Open Scope nat_scope. Open Scope list_scope.

(** [t1] and [t2] are the systems of constraints of the two circuits as the verifier
    builds them.  [verify] computes the result of [Proof::verify] for the commitment to
    the proof's public inputs (C56); it panics if no challenge is found, or the carried
    deferred data or leftovers cannot be checked; and else returns true exactly if all
    checks pass. *)
Theorem C64_verify_exact : forall E1 E2 (cy : Cycle E1 E2), halo_cycle E1 E2 cy -> forall P1 P2 c p t1 M,
  can_be_verified cy P1 P2 c p t1 -> machine_ok M ->
  exists K k, input_commitment P1 p K /\ input_polynomial t1 p k /\
    ((verify cy M p P1 P2 c = Panicked /\ exists tr, reached tr /\ no_challenge (C := E1) 256 tr) \/
     exists good L' D forks, verified K k (rp_proof p) (rp_oldproof1 p) good L' D forks /\
       (verify cy M p P1 P2 c <> Panicked -> checkable_leftovers P2 (rp_oldproof2 p) /\ checkable_deferred (rp_deferred p)) /\
       (checkable_leftovers P2 (rp_oldproof2 p) -> checkable_deferred (rp_deferred p) ->
        exists b, verify cy M p P1 P2 c = Done (Ok b) /\ (b = true <-> all_checks cy P1 P2 c p good L' D))).
Proof.
  intros E1 E2 cy HC P1 P2 c p t1 M (A1 & A2 & A3 & A4 & A5 & A6 & (t2 & A7) & A8 & A9 & A10) HM. destruct HC.
  - exact (verify_char Ec0_laws Ec1_laws cycle01 P1 P2 c A1 A2 A3 A4 p t1 t2 A6 A7 A8 A9 A10 A5 M HM).
  - exact (verify_char Ec1_laws Ec0_laws cycle10 P1 P2 c A1 A2 A3 A4 p t1 t2 A6 A7 A8 A9 A10 A5 M HM).
Qed.


(** *** The hypotheses are met by every proof that [create_proof] makes in a history of
    proofs (C61; the example there shows that there are such histories): it can be
    verified, and its parts can be checked. *)
Theorem C64_histories : forall E1 E2 (cy : Cycle E1 E2), halo_cycle E1 E2 cy -> forall P1 P2 c len ok p,
  ready cy P1 P2 c len ok -> history len ok E1 E2 cy P1 P2 c p ->
  (exists t1, can_be_verified cy P1 P2 c p t1) /\ checkable_leftovers P2 (rp_oldproof2 p) /\ checkable_deferred (rp_deferred p).
Proof.
  assert (X : forall E1 E2 (cy : Cycle E1 E2) q1 vb1 r1 vs1 (CL1 : CurveLaws E1 q1 vb1 r1 vs1) q2 vb2 r2 vs2 (CL2 : CurveLaws E2 q2 vb2 r2 vs2),
    halo_curve E1 r1 -> halo_curve E2 r2 -> forall P1 P2 c len ok p, ready cy P1 P2 c len ok -> history len ok E1 E2 cy P1 P2 c p ->
    (exists t1, can_be_verified cy P1 P2 c p t1) /\ checkable_leftovers P2 (rp_oldproof2 p) /\ checkable_deferred (rp_deferred p)).
  { intros E1 E2 cy q1 vb1 r1 vs1 CL1 q2 vb2 r2 vs2 CL2 H1 H2 P1 P2 c len ok p HR HH.
    destruct (history_ripe _ _ _ _ _ _ _ _ _ HH _ _ H1 H2 HR) as [L0 A1 A2 _ _ A5 _ _ _ A9 _ (t1 & T1 & I1 & I2 & I3)].
    pose proof (rk cy P1 P2 c len ok HR) as (Ek & Hk & _ & Hn2). pose proof HR as (_ & [HP1 _ _ _ _ _] & [HP2 _ _ _ _ _]).
    destruct (blank2 H1 cy P1 P2 c len ok HR _ L0) as (t2 & T2).
    destruct (good_reps CL2 P2 HP2) as (gs & HG). pose proof A2 as A2'. apply (honest_iff CL2 P2 HP2 gs HG) in A2'. destruct A2' as (cs & cis & sx & B1 & B2 & B3 & B4 & _ & B6).
    split; [|split].
    - exists t1. split; [exact HP1|]. split; [exact HP2|]. split; [lia|]. split; [lia|].
      split; [split; [exact A9|split; [eexists; exact (proj2 B6)|eexists; exact B4]]|]. split; [exact T1|]. split; [exists t2; exact T2|]. split; [exact I1|]. split; [exact I2|exact I3].
    - split; [exact B3|]. clear - B1. unfold rooted_all. induction B1; constructor; [congruence|assumption].
    - apply (deferred_formed (cl_scalar _ _ _ _ _ CL2) _ (p_k P2)). rewrite A5. discriminate. }
  intros E1 E2 cy [|] P1 P2 c len ok p.
  - exact (X _ _ cycle01 _ _ _ _ Ec0_laws _ _ _ _ Ec1_laws halo_ec0 halo_ec1 P1 P2 c len ok p).
  - exact (X _ _ cycle10 _ _ _ _ Ec1_laws _ _ _ _ Ec0_laws halo_ec1 halo_ec0 P1 P2 c len ok p).
Qed.

Print Assumptions C64_verify_exact.
Print Assumptions C64_histories.
