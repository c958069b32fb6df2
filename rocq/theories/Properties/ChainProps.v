(** C61: proofs that carry proofs (src/recursion.rs).  Starting without an old proof
    and continuing, on alternating curves, for as long as the application accepts the
    steps: every call of [create_proof] returns a proof, and [verify] accepts it.
    [ready], [can_start], [can_continue] and [history] are in Spec/ChainSpec.v. *)
From Coq Require Import ZArith List Bool Arith Lia.
From Verif Require Import Model.FieldTrait Model.FieldInst Model.Circuits Model.Boolean Model.Curve Model.Threads Model.Util Model.Rescue Model.Params
  Model.Opening Model.Proofs Model.Recursion Model.RecursiveProof
  Spec.CircuitSpec Spec.CurveSpec Spec.UtilSpec Spec.SystemSpec Spec.ProofSpec Spec.RecursiveCircuitSpec Spec.UniformSpec Spec.ChainSpec
  Spec.CurveLaws Spec.SizeSpec Proofs.FpFq Proofs.CurveInst Proofs.ProverTop Proofs.ChainP Proofs.WideGensP
  Properties.RecursiveCircuitProps Properties.RecursiveSystemProps Properties.SizeProps.
From Verif Require Export Spec.RunSpec.
Import ListNotations.
Open Scope nat_scope. Open Scope list_scope.

(** A first proof: [create_proof] returns one, unless the search for a challenge of the
    inner product argument fails (it does not end within [fuel] tries). *)
Theorem C61_first : forall E1 E2 (cy : Cycle E1 E2), halo_cycle E1 E2 cy -> forall P1 P2 c len ok M fuel payload,
  ready cy P1 P2 c len ok -> machine_ok M -> can_start M P1 P2 c len ok payload ->
  (create_proof cy M fuel P1 P2 None c payload = Running /\ exists t, reached t /\ no_challenge (C := E1) fuel t) \/
  exists p, create_proof cy M fuel P1 P2 None c payload = Done (Ok p).
Proof.
  intros E1 E2 cy HC P1 P2 c len ok M fuel payload HR HM HS. destruct HC.
  - destruct (first_ripe halo_ec0 halo_ec1 cycle01 P1 P2 c len ok HR M fuel payload HM HS) as [H|(p & H & _)]; [left; exact H|right; exists p; exact H].
  - destruct (first_ripe halo_ec1 halo_ec0 cycle10 P1 P2 c len ok HR M fuel payload HM HS) as [H|(p & H & _)]; [left; exact H|right; exists p; exact H].
Qed.
(** A further proof, from any proof of a history *)
Theorem C61_next : forall E1 E2 (cy : Cycle E1 E2), halo_cycle E1 E2 cy -> forall P1 P2 c len ok M fuel old payload,
  ready cy P1 P2 c len ok -> machine_ok M -> history len ok E2 E1 (swap cy) P2 P1 (swap_circuits c) old -> can_continue P2 c len ok old payload ->
  (create_proof cy M fuel P1 P2 (Some old) c payload = Running /\ exists t, reached t /\ no_challenge (C := E1) fuel t) \/
  exists p, create_proof cy M fuel P1 P2 (Some old) c payload = Done (Ok p).
Proof.
  intros E1 E2 cy HC P1 P2 c len ok M fuel old payload HR HM HH HS. destruct HC.
  - pose proof (history_ripe _ _ _ _ _ _ _ _ _ HH _ _ halo_ec1 halo_ec0 (ready_swap _ _ _ _ _ _ HR)) as HO.
    destruct (next_ripe halo_ec0 halo_ec1 cycle01 P1 P2 c len ok HR M fuel old payload HM HO HS) as [H|(p & H & _)]; [left; exact H|right; exists p; exact H].
  - pose proof (history_ripe _ _ _ _ _ _ _ _ _ HH _ _ halo_ec0 halo_ec1 (ready_swap _ _ _ _ _ _ HR)) as HO.
    destruct (next_ripe halo_ec1 halo_ec0 cycle10 P1 P2 c len ok HR M fuel old payload HM HO HS) as [H|(p & H & _)]; [left; exact H|right; exists p; exact H].
Qed.
(** Every proof of a history is accepted, on any machine. *)
Theorem C61_verifies : forall E1 E2 (cy : Cycle E1 E2), halo_cycle E1 E2 cy -> forall P1 P2 c len ok M p,
  ready cy P1 P2 c len ok -> machine_ok M -> history len ok E1 E2 cy P1 P2 c p -> verify cy M p P1 P2 c = Done (Ok true).
Proof.
  intros E1 E2 cy HC P1 P2 c len ok M p HR HM HH. destruct HC.
  - exact (ripe_verifies halo_ec0 halo_ec1 cycle01 P1 P2 c len ok HR M p HM (history_ripe _ _ _ _ _ _ _ _ _ HH _ _ halo_ec0 halo_ec1 HR)).
  - exact (ripe_verifies halo_ec1 halo_ec0 cycle10 P1 P2 c len ok HR M p HM (history_ripe _ _ _ _ _ _ _ _ _ HH _ _ halo_ec1 halo_ec0 HR)).
Qed.

(** Parameters of size 22 and an application for which all of this holds: the payload of
    four bytes stays the same.  Both circuits fit, a first proof can be started on any
    machine, and every proof with this payload can be continued. *)
Lemma keep_accepts {C q vb r vs} (CL : CurveLaws C q vb r vs) : accepts (F := Base C) (keep (flat_map byte_bits keep_bytes)) (flat_map byte_bits keep_bytes) (flat_map byte_bits keep_bytes).
Proof. intros w one w1 ob nb Ho Hn. exact (keep_complete CL _ w one w1 _ ob nb Ho Hn). Qed.
Lemma keep_half {E1 E2 : Curve} {q1 vb1 r1 vs1 q2 vb2 r2 vs2} (CL1 : CurveLaws E1 q1 vb1 r1 vs1) (CL2 : CurveLaws E2 q2 vb2 r2 vs2) (HC2 : halo_curve E2 r2)
    (cy : Cycle E1 E2) (P1 : Params E1) (P2 : Params E2) (D : Deferred (Scalar E2)) (OD : Deferred (Base E2)) c :
  p_k P1 = 22 -> p_k P2 = 22 -> good_params P1 -> good_params P2 ->
  Forall2 (fun G xy => represents G (Some xy)) (p_generators P1) (p_generators_xy P1) -> Forall2 (fun G xy => represents G (Some xy)) (p_generators P2) (p_generators_xy P2) ->
  (forall bits, exists B, bits_commitment P1 bits B) -> (forall bits, exists B, bits_commitment P2 bits B) ->
  deferred_dummy 22 = Some D -> deferred_dummy 22 = Some OD -> on_scalar1 c = keep (flat_map byte_bits keep_bytes) -> half_ready cy P1 P2 c 4 any_bits.
Proof.
  intros K1 K2 HP1 HP2 A1 A2 HB1 HB2 ED EOD EC. constructor.
  - exact HP1.
  - exact A1.
  - destruct (HB1 [true]) as (B & HB). exact (bits_commitment_starts CL1 P1 true [] _ HB).
  - rewrite EC. apply keep_uniform.
  - rewrite EC. reflexivity.
  - rewrite <- K2 in ED, EOD. destruct (keep_fits CL2 HC2 D OD P2 ED EOD ltac:(rewrite K2; exact (le_n 22)) HP2 A2 HB2) as (_ & _ & _ & s & _ & _ & H).
    destruct (H (repeat 0%Z 4) eq_refl) as (t & H1 & _ & H2 & H3).
    assert (EN : p_n P1 = p_n P2 /\ p_d P1 = p_d P2). { destruct HP1 as (_ & X1 & X2 & _), HP2 as (_ & Y1 & Y2 & _). rewrite K1 in *. rewrite K2 in *. lia. }
    destruct EN as (-> & ->).
    unfold step_circuit, blank_circuit, inner_for, as_circuit. rewrite EC. clear - H1 H2 H3. destruct (cyc_base2 cy). exists (repeat 0%Z 4), t. split; [split; [reflexivity|exact I]|]. split; [exact H1|]. split; assumption.
Qed.
Definition keep_both : BothCircuits Ec0 Ec1 := mkBoth Ec0 Ec1 (keep (flat_map byte_bits keep_bytes)) (keep (flat_map byte_bits keep_bytes)).
Example C61_nonvacuous : exists (P1 : Params Ec0) (P2 : Params Ec1), let c := keep_both in ready cycle01 P1 P2 c 4 any_bits /\
  (forall M, machine_ok M -> can_start M P1 P2 c 4 any_bits keep_bytes) /\
  (forall old, rp_payload old = keep_bytes -> can_continue P2 c 4 any_bits old keep_bytes) /\
  (forall old, rp_payload old = keep_bytes -> can_continue P1 (swap_circuits c) 4 any_bits old keep_bytes).
Proof.
  destruct (wide_params_exist Ec0_laws 22 ltac:(lia)) as (P1 & K1 & HP1 & A1 & HB1).
  destruct (wide_params_exist Ec1_laws 22 ltac:(lia)) as (P2 & K2 & HP2 & A2 & HB2).
  destruct (deferred_dummy_top Ec0_laws 22 magic_fp ltac:(lia)) as (D & ED & _).
  destruct (deferred_dummy_top Ec1_laws 22 magic_fq ltac:(lia)) as (OD & EOD & _).
  exists P1, P2. cbv zeta.
  split; [|split; [|split]].
  - split; [congruence|]. split.
    + apply (keep_half Ec0_laws Ec1_laws halo_ec1 cycle01 P1 P2 OD D _ K1 K2 HP1 HP2 A1 A2 HB1 HB2 EOD ED). reflexivity.
    + apply (keep_half Ec1_laws Ec0_laws halo_ec0 (swap cycle01) P2 P1 D OD _ K2 K1 HP2 HP1 A2 A1 HB2 HB1 ED EOD). reflexivity.
  - intros M HM. split; [split; [reflexivity|exact I]|]. split; [exact (keep_accepts Ec1_laws)|]. intros L OD' _ _. apply HB2.
  - intros old EO. split; [split; [reflexivity|exact I]|]. split; [rewrite EO; exact (keep_accepts Ec1_laws)|apply HB2].
  - intros old EO. split; [split; [reflexivity|exact I]|]. split; [rewrite EO; exact (keep_accepts Ec0_laws)|apply HB1].
Qed.

Print Assumptions C61_first.
Print Assumptions C61_next.
Print Assumptions C61_verifies.
