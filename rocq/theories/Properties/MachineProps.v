(** C77: proofs do not depend on the machine.  [Proof::new], [RecursiveProof::create_proof]
    and [RecursiveProof::verify] run parts of their work in threads, as many as there are
    processors, and choose sizes of windows with a floating point logarithm.  Whatever
    the number of processors, the scheduling and the logarithm, they end alike and give
    the same result: the same scalars, and the same points (of which only the
    projective coordinates may differ). *)
From Coq Require Import ZArith List Bool Arith Lia.
From Verif Require Import Model.FieldTrait Model.FieldInst Model.Circuits Model.Curve Model.Threads Model.Util Model.Rescue Model.Params Model.Opening Model.Proofs Model.Recursion Model.RecursiveProof
  Spec.FieldSpec Spec.FieldLaws Spec.CurveSpec Spec.CurveLaws Spec.UtilSpec Spec.SystemSpec Spec.ProofSpec Spec.VerifySpec Spec.ChainSpec Spec.RunSpec Spec.AcceptSpec Spec.MachineSpec
  Proofs.CurveInst Proofs.MachineP Proofs.SamePointsP Properties.AcceptProps.
Import ListNotations.
Open Scope nat_scope. Open Scope list_scope.

Lemma good_small {C : Curve} (P : Params C) : good_params P -> Forall valid (p_generators P) /\ (Z.of_nat (length (p_generators P)) < 2 ^ 32)%Z.
Proof.
  intros (K & _ & _ & L & V). split; [exact V|]. rewrite L, Nat2Z.inj_pow. apply Z.pow_lt_mono_r; lia.
Qed.

Theorem C77_prover : forall C r, halo_curve C r -> forall M M' fuel (P : Params C) circuit old, machine_ok M -> machine_ok M' -> good_params P ->
  same_outcome (same_result (fun '(pf, L) '(pf', L') => same_proof pf pf' /\ same_leftovers L L'))
    (proof_new M fuel P circuit old) (proof_new M' fuel P circuit old).
Proof.
  intros C r HC M M' fuel P circuit old HM HM' HP. destruct (good_small P HP) as [V Z0].
  destruct HC; [exact (same_proof_new Ec0_laws M M' HM HM' P V Z0 fuel circuit old old eq_refl eq_refl)|exact (same_proof_new Ec1_laws M M' HM HM' P V Z0 fuel circuit old old eq_refl eq_refl)].
Qed.

Theorem C77_create : forall E1 E2 (cy : Cycle E1 E2), halo_cycle E1 E2 cy -> forall M M' fuel P1 P2 old c payload,
  machine_ok M -> machine_ok M' -> good_params P1 -> good_params P2 ->
  (forall p, old = Some p -> valid_leftovers (rp_oldproof2 p) /\ valid_new (rp_proof p)) ->
  same_outcome (same_result same_recursive) (create_proof cy M fuel P1 P2 old c payload) (create_proof cy M' fuel P1 P2 old c payload).
Proof.
  intros E1 E2 cy HC M M' fuel P1 P2 old c payload HM HM' HP1 HP2 HO. destruct (good_small P1 HP1) as [V1 Z1]. destruct (good_small P2 HP2) as [V2 Z2].
  destruct HC; [exact (same_create Ec0_laws Ec1_laws cycle01 M M' HM HM' P1 P2 V1 Z1 V2 Z2 fuel old c payload HO)|exact (same_create Ec1_laws Ec0_laws cycle10 M M' HM HM' P1 P2 V1 Z1 V2 Z2 fuel old c payload HO)].
Qed.

Theorem C77_verify : forall E1 E2 (cy : Cycle E1 E2), halo_cycle E1 E2 cy -> forall M M' P1 P2 p c,
  machine_ok M -> machine_ok M' -> good_params P1 -> good_params P2 -> valid_leftovers (rp_oldproof2 p) -> valid_new (rp_proof p) ->
  verify cy M p P1 P2 c = verify cy M' p P1 P2 c.
Proof.
  intros E1 E2 cy HC M M' P1 P2 p c HM HM' HP1 HP2 HV HN. destruct (good_small P1 HP1) as [V1 Z1]. destruct (good_small P2 HP2) as [V2 Z2].
  destruct HC; [exact (same_verify Ec0_laws Ec1_laws cycle01 M M' HM HM' P1 P2 V1 Z1 V2 Z2 p c HV HN)|exact (same_verify Ec1_laws Ec0_laws cycle10 M M' HM HM' P1 P2 V1 Z1 V2 Z2 p c HV HN)].
Qed.

(** The verifier does not depend on the coordinates that represent the points of the
    proof either: it answers the same, on any two machines, for two proofs that differ in
    nothing else. *)
Theorem C77_coordinates : forall E1 E2 (cy : Cycle E1 E2), halo_cycle E1 E2 cy -> forall M M' P1 P2 p p' c,
  machine_ok M -> machine_ok M' -> good_params P1 -> good_params P2 -> same_recursive p p' ->
  verify cy M p P1 P2 c = verify cy M' p' P1 P2 c.
Proof.
  intros E1 E2 cy HC M M' P1 P2 p p' c HM HM' HP1 HP2 HS.
  assert (E : verify cy M p P1 P2 c = verify cy M p' P1 P2 c).
  { destruct (good_small P1 HP1) as [V1 Z1]. destruct (good_small P2 HP2) as [V2 Z2].
    destruct HC; [exact (same_points_verify Ec0_laws Ec1_laws cycle01 M HM P1 P2 V1 Z1 V2 Z2 p p' c HS)|exact (same_points_verify Ec1_laws Ec0_laws cycle10 M HM P1 P2 V1 Z1 V2 Z2 p p' c HS)]. }
  rewrite E. assert (VR : forall (C : Curve) (D D' : C), same_point D D' -> valid D') by (intros C D D' (A & _ & H); exists A; exact H).
  destruct HS as [SP S1 S2 _ _]. destruct S2 as [A1 _ A2 _]. destruct SP as [_ _ _ _ _ B1 _ _ _ _ _ _ _ [_ _ B2]].
  apply (C77_verify E1 E2 cy HC); try assumption; split; eapply VR; eassumption.
Qed.

(** A proof made on one machine and the proof made from the same inputs on another get
    the same answer from every verifier. *)
Theorem C77_anywhere : forall E1 E2 (cy : Cycle E1 E2), halo_cycle E1 E2 cy -> forall M M' fuel P1 P2 old c payload p,
  machine_ok M -> machine_ok M' -> good_params P1 -> good_params P2 ->
  (forall o, old = Some o -> valid_leftovers (rp_oldproof2 o) /\ valid_new (rp_proof o)) ->
  create_proof cy M fuel P1 P2 old c payload = Done (Ok p) ->
  exists p', create_proof cy M' fuel P1 P2 old c payload = Done (Ok p') /\ same_recursive p p' /\
    forall N N' c', machine_ok N -> machine_ok N' -> verify cy N p P1 P2 c' = verify cy N' p' P1 P2 c'.
Proof.
  intros E1 E2 cy HC M M' fuel P1 P2 old c payload p HM HM' HP1 HP2 HO H.
  pose proof (C77_create E1 E2 cy HC M M' fuel P1 P2 old c payload HM HM' HP1 HP2 HO) as S. rewrite H in S.
  destruct (create_proof cy M' fuel P1 P2 old c payload) as [[p'|e]| |]; cbn in S; try contradiction.
  exists p'. split; [reflexivity|]. split; [exact S|]. intros N N' c' HN HN'. apply (C77_coordinates E1 E2 cy HC); assumption.
Qed.

(** *** The hypotheses are met by every proof of a history of proofs (C61) *)
Example C77_nonvacuous : forall E1 E2 (cy : Cycle E1 E2), halo_cycle E1 E2 cy -> forall P1 P2 c len ok p,
  ready cy P1 P2 c len ok -> history len ok E1 E2 cy P1 P2 c p ->
  good_params P1 /\ good_params P2 /\ valid_leftovers (rp_oldproof2 p) /\ valid_new (rp_proof p).
Proof.
  intros E1 E2 cy HC P1 P2 c len ok p HR HH. destruct (C64_histories E1 E2 cy HC P1 P2 c len ok p HR HH) as ((t1 & G1 & G2 & _ & _ & (W & W1 & W2) & _) & _).
  split; [exact G1|]. split; [exact G2|]. split; [split; assumption|]. destruct W as (F8 & (_ & _ & _ & Vg & _) & _). split; [|exact Vg].
  rewrite Forall_forall in F8. apply F8. cbn. tauto.
Qed.
(** ..., also those of [C77_coordinates] *)
Example C77_same : forall E1 E2 (cy : Cycle E1 E2), halo_cycle E1 E2 cy -> forall P1 P2 c len ok p,
  ready cy P1 P2 c len ok -> history len ok E1 E2 cy P1 P2 c p -> same_recursive p p.
Proof.
  intros E1 E2 cy HC P1 P2 c len ok p HR HH. destruct (C64_histories E1 E2 cy HC P1 P2 c len ok p HR HH) as ((t1 & G1 & G2 & _ & _ & (W & W1 & W2) & _) & _).
  destruct W as (F8 & (W3 & W4 & W5 & Vg & W6) & _).
  assert (SL : forall (C : Curve) (l : list C), Forall valid l -> same_points l l) by (induction 1; constructor; [apply same_refl; assumption|assumption]).
  pose proof F8 as V. rewrite Forall_forall in V. cbn [In] in V.
  constructor; [|constructor|constructor|..]; try reflexivity; try (apply same_refl; assumption); try (apply same_refl, V; tauto).
  constructor; try reflexivity; try (apply same_refl, V; tauto).
  constructor; try reflexivity; [|apply same_refl; exact Vg].
  clear W4. induction W6 as [|x l (_ & _ & _ & _ & HL & HR') _ IH]; [constructor|]. constructor; [|exact IH]. constructor; try reflexivity; apply SL; assumption.
Qed.

Print Assumptions C77_prover.
Print Assumptions C77_create.
Print Assumptions C77_verify.
Print Assumptions C77_coordinates.
Print Assumptions C77_anywhere.
Print Assumptions C77_nonvacuous.
Print Assumptions C77_same.
