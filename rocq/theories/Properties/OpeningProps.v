(** C47: the inner product argument is complete.  [true_claim], [same_claim] and
    [folds_to] are in Spec/ProofSpec.v.  The prover searches for challenges with
    a square root: [Running] means that one of its searches used up [fuel]
    attempts, and then none of those challenges has a square root. *)
From Coq Require Import ZArith List Bool Arith Lia.
From Verif Require Import Model.FieldTrait Model.FieldInst Model.Circuits Model.Curve Model.Threads Model.Util Model.Rescue Model.Params Model.Opening
  Spec.FieldSpec Spec.FieldLaws Spec.CurveSpec Spec.CurveLaws Spec.UtilSpec Spec.ProofSpec
  Proofs.CurveInst Proofs.CurveTop Proofs.UtilTop Proofs.OpeningTop.
Import ListNotations.
Open Scope nat_scope. Open Scope list_scope.

(** For true claims [new_proof] does not panic, and [verify_proof] accepts what
    it returns with the same challenges, final generator and transcript, unless
    the prover needed more than 256 attempts: then the verifier panics. *)
Theorem C47_inner_product_complete : forall C r, halo_curve C r -> forall M, machine_ok M ->
  forall fuel (generators : list C) k transcript instances, 1 <= k <= 32 ->
  length generators = 2 ^ k -> Forall valid generators -> reached transcript ->
  Forall (fun ic => true_claim generators (fst ic) (snd ic)) instances ->
  (new_proof M fuel transcript instances generators k = Running /\ exists t, reached t /\ no_challenge (C := C) fuel t) \/
  exists pf packed g transcript', new_proof M fuel transcript instances generators k = Done (pf, packed, g, transcript') /\
    folds_to generators packed g /\ length packed = k /\
    forall claims, Forall2 same_claim (map fst instances) claims ->
      (exists forks, verify_proof pf transcript claims k = Done (true, packed, g, forks, transcript')) \/
      (256 < fuel /\ verify_proof pf transcript claims k = Panicked).
Proof.
  intros C r [|] M HM fuel gens k t instances; [exact (ipa_top Ec0_laws M fuel gens k t instances HM)|exact (ipa_top Ec1_laws M fuel gens k t instances HM)].
Qed.
(** What [commit] and [compute_opening] return for a polynomial is a true claim about it. *)
Theorem C47_honest_claims : forall C r, halo_curve C r -> forall M, machine_ok M -> forall (P : Params C) v x right_edge,
  Forall valid (p_generators P) -> (Z.of_nat (length (p_generators P)) < 2 ^ 32)%Z -> length v <= length (p_generators P) ->
  exists D o, commit M P v right_edge = Some D /\ compute_opening P v x right_edge = Some o /\
    true_claim (p_generators P) (mkOpening D o x right_edge) v.
Proof.
  intros C r [|] M HM P v x edge; [exact (honest_claim Ec0_laws M P v x edge HM)|exact (honest_claim Ec1_laws M P v x edge HM)].
Qed.

(** *** The hypotheses are met: two generators, the polynomial 5 + 7 X at 3 *)
Definition machine3 : Machine := {| cpus := 3; sched := fun site => [1; 2; 2; 1; 7; 2]; ln_ceil := Nat.log2 |}.
Definition two : Params Ec0 := mkParams c_one 2 1 1 [c_one; c_double c_one] [].
Lemma two_valid : Forall valid (p_generators two).
Proof.
  destruct (valid_top Ec0_laws) as (_ & V1 & _ & V2). repeat constructor; [exact V1|exact (proj1 (proj2 (V2 _ V1)))].
Qed.
Example claim_case : exists D o, commit machine3 two [f_from_u64 5; f_from_u64 7] false = Some D /\
  compute_opening two [f_from_u64 5; f_from_u64 7] (f_from_u64 3) false = Some o /\
  true_claim (p_generators two) (mkOpening D o (f_from_u64 3) false) [f_from_u64 5; f_from_u64 7] /\
  1 <= 1 <= 32 /\ length (p_generators two) = 2 ^ 1 /\ Forall valid (p_generators two) /\
  reached (absorb (rescue_new (F := Base Ec0)) fone).
Proof.
  destruct (C47_honest_claims Ec0 _ halo_ec0 machine3 machine3_top two [f_from_u64 5; f_from_u64 7] (f_from_u64 3) false two_valid eq_refl (le_n 2)) as (D & o & H1 & H2 & H3).
  exists D, o. split; [exact H1|]. split; [exact H2|]. split; [exact H3|]. split; [lia|]. split; [reflexivity|]. split; [exact two_valid|].
  apply reached_absorb, reached_new.
Qed.

Print Assumptions C47_inner_product_complete.
Print Assumptions C47_honest_claims.
