(** C69: the development helper [dev::recursive_is_satisfied] (src/dev.rs), with which an
    application tries a recursive step without making a proof.  It says yes for every
    step that [create_proof] can prove (C61), and when it says yes the application's
    circuit did accept the step.  [ready], [can_start], [can_continue] and [history] are
    in Spec/ChainSpec.v; [tidy] is in Spec/DevSpec.v. *)
From Coq Require Import ZArith List Bool Arith Lia String.
From Verif Require Import Model.FieldTrait Model.FieldInst Model.Circuits Model.Boolean Model.Curve Model.Threads Model.Util Model.Rescue Model.Params
  Model.Opening Model.Proofs Model.Recursion Model.RecursiveProof Model.Dev Model.DevRecursive Model.Bitcoin
  Spec.FieldLaws Spec.CircuitSpec Spec.BoolSpec Spec.CurveSpec Spec.UtilSpec Spec.SystemSpec Spec.ProofSpec Spec.RecursiveCircuitSpec Spec.UniformSpec Spec.ChainSpec Spec.DevSpec Spec.BitcoinSpec
  Proofs.FpFq Proofs.CurveInst Proofs.ProverTop Proofs.TidyP Proofs.ChainP Proofs.DevRecursiveP
  Properties.ProverProps Properties.RecursiveCircuitProps Properties.RecursiveSystemProps Properties.SizeProps Properties.ChainProps Properties.BitcoinProps.
Import ListNotations.
Open Scope nat_scope. Open Scope list_scope.

(** A first step *)
Theorem C69_first : forall E1 E2 (cy : Cycle E1 E2), halo_cycle E1 E2 cy -> forall P1 P2 c len ok M payload,
  ready cy P1 P2 c len ok -> machine_ok M -> (forall one ob nb, tidy 0 (inner_synthesize (on_scalar1 c) one ob nb)) ->
  can_start M P1 P2 c len ok payload ->
  recursive_is_satisfied cy M P1 P2 None c payload = Done SatTrue.
Proof.
  intros E1 E2 cy HC P1 P2 c len ok M payload HR HM HT HS.
  destruct HC; [exact (dev_first halo_ec0 halo_ec1 cycle01 P1 P2 c len ok HR HT M payload HM HS)|exact (dev_first halo_ec1 halo_ec0 cycle10 P1 P2 c len ok HR HT M payload HM HS)].
Qed.
Print Assumptions C69_first.
(** A further step, from any proof of a history *)
Theorem C69_next : forall E1 E2 (cy : Cycle E1 E2), halo_cycle E1 E2 cy -> forall P1 P2 c len ok M old payload,
  ready cy P1 P2 c len ok -> machine_ok M -> (forall one ob nb, tidy 0 (inner_synthesize (on_scalar1 c) one ob nb)) ->
  history len ok E2 E1 (swap cy) P2 P1 (swap_circuits c) old -> can_continue P2 c len ok old payload ->
  recursive_is_satisfied cy M P1 P2 (Some old) c payload = Done SatTrue.
Proof.
  intros E1 E2 cy HC P1 P2 c len ok M old payload HR HM HT HH HS. destruct HC.
  - pose proof (history_ripe _ _ _ _ _ _ _ _ _ HH _ _ halo_ec1 halo_ec0 (ready_swap _ _ _ _ _ _ HR)) as HO.
    exact (dev_next halo_ec0 halo_ec1 cycle01 P1 P2 c len ok HR HT M old payload HM HO HS).
  - pose proof (history_ripe _ _ _ _ _ _ _ _ _ HH _ _ halo_ec0 halo_ec1 (ready_swap _ _ _ _ _ _ HR)) as HO.
    exact (dev_next halo_ec1 halo_ec0 cycle10 P1 P2 c len ok HR HT M old payload HM HO HS).
Qed.
Print Assumptions C69_next.
(** What a yes shows, of any old proof and any parameters: the application's circuit ran
    on bits that carry the old proof's payload (its initial payload when there is none)
    and the new payload, it succeeded, and the values it computed satisfy its
    constraints. *)
Theorem C69_only_if : forall E1 E2 (cy : Cycle E1 E2), halo_cycle E1 E2 cy -> forall M P1 P2 old c payload,
  recursive_is_satisfied cy M P1 P2 old c payload = Done SatTrue ->
  exists (w : assignment (Scalar E1)) ob nb tr, w (VA 1) = fone /\
    Forall2 (bit_has w) ob (match old with Some p => flat_map byte_bits (rp_payload p) | None => base_payload (on_scalar1 c) end) /\
    Forall2 (bit_has w) nb (flat_map byte_bits payload) /\
    Exec (inner_synthesize (on_scalar1 c) (VA 1) ob nb) tr (Some (Ok tt)) /\ witnessed w tr /\ constraints_hold w tr.
Proof.
  intros E1 E2 cy HC M P1 P2 old c payload E. destruct HC; [exact (dev_only_if halo_ec1 cycle01 M P1 P2 old c payload E)|exact (dev_only_if halo_ec0 cycle10 M P1 P2 old c payload E)].
Qed.
Print Assumptions C69_only_if.
(** An old proof that cannot be processed is reported as a synthesis error. *)
Theorem C69_error : forall E1 E2 (cy : Cycle E1 E2) M P1 P2 old c payload e,
  verify_inner (swap cy) M old P2 P1 (swap_circuits c) = Done (Err e) ->
  recursive_is_satisfied cy M P1 P2 (Some old) c payload = Done (SatErr (SynthesisErr e)).
Proof. intros E1 E2 cy M P1 P2 old c payload e. exact (dev_error cy M P1 P2 old c payload e). Qed.
Print Assumptions C69_error.

(** For the Bitcoin example: a yes is given only for headers with a target that the
    circuit can handle (C66), for payloads of at least 116 bytes that are a step of its
    circuit (C65). *)
Theorem C69_bitcoin : forall E1 E2 (cy : Cycle E1 E2), halo_cycle E1 E2 cy -> forall r1, halo_curve E1 r1 -> forall M P1 P2 old payload,
  recursive_is_satisfied cy M P1 P2 old bitcoin_circuits payload = Done SatTrue ->
  let ob := match old with Some p => flat_map byte_bits (rp_payload p) | None => base_payload (@bitcoin_circuit (Scalar E1)) end in
  let nb := flat_map byte_bits payload in
  928 <= length ob /\ 928 <= length nb /\ mirrored (header_of nb) /\ exists d, circuit_step r1 ob nb d.
Proof.
  intros E1 E2 cy HC r1 H1 M P1 P2 old payload E ob nb. destruct (C69_only_if E1 E2 cy HC M P1 P2 old bitcoin_circuits payload E) as (w & o & n & tr & W1 & HO & HN & HE & HW & HCs).
  fold nb in HN. change (Forall2 (bit_has w) o ob) in HO. clearbody ob nb. cbn [bitcoin_circuits on_scalar1 bitcoin_circuit inner_synthesize] in HE. clear E.
  assert (X : forall v, FieldLaws (Scalar E1) r1 v -> 928 <= length ob /\ 928 <= length nb /\ mirrored (header_of nb) /\ exists d, circuit_step r1 ob nb d).
  { intros v FL.
    assert (bits : forall l bs, Forall2 (bit_has w) l bs -> Forall2 (bit_is w) l bs) by (induction 1 as [|l b bs bs' [X _]]; constructor; assumption).
    destruct (C65_bitcoin_sound _ r1 v FL w (VA 1) W1 o n ob nb (bits _ _ HO) (bits _ _ HN) tr tt HE HCs) as (L1 & L2 & HD).
    split; [exact L1|]. split; [exact L2|]. split; [|exact HD].
    assert (D : forall a b : list bool, {a = b} + {a <> b}) by (apply list_eq_dec, bool_dec).
    assert (N : ~ ~ mirrored (header_of nb)) by (intro N; exact (proj2 (C66_bitcoin_honest _ r1 v FL w (VA 1) W1 o n ob nb HO HN) N tr tt HE HW HCs)).
    unfold mirrored in *. repeat split; match goal with |- ?a = ?b => destruct (D a b) as [X|X]; [exact X|exfalso; apply N; tauto] end. }
  destruct H1; [exact (X _ Fp_laws)|exact (X _ Fq_laws)].
Qed.
Print Assumptions C69_bitcoin.

(** The Bitcoin circuit is tidy, so C69_first and C69_next hold of it with C67's
    hypotheses. *)
Example C69_bitcoin_tidy : forall E1 E2 one ob nb, tidy 0 (inner_synthesize (on_scalar1 (@bitcoin_circuits E1 E2)) one ob nb).
Proof. intros E1 E2 one ob nb. apply T_bitcoin_synthesize. Qed.
(** C61's parameters and application meet the hypotheses: the steps that keep the payload
    of four bytes are accepted, the first and, from any proof made so, the next. *)
Lemma same_bits_tidy {F : Field} : forall old new, tidy (F := F) 0 (same_bits old new).
Proof. induction old as [|o old IH]; intros [|n new]; cbn [same_bits]; try exact eq_refl. unfold enforce_zero, bind. cbn. apply IH. Qed.
Lemma keep_tidy {F : Field} payload one ob nb : tidy (F := F) 0 (inner_synthesize (keep payload) one ob nb).
Proof. cbn [keep inner_synthesize]. apply tidy_bind; [apply same_bits_tidy|]. intros []. destruct nb; exact eq_refl. Qed.
Example C69_nonvacuous : exists (P1 : Params Ec0) (P2 : Params Ec1), let c := keep_both in forall M, machine_ok M ->
  recursive_is_satisfied cycle01 M P1 P2 None c keep_bytes = Done SatTrue /\
  forall old, history 4 any_bits Ec1 Ec0 cycle10 P2 P1 (swap_circuits c) old -> rp_payload old = keep_bytes ->
    recursive_is_satisfied cycle01 M P1 P2 (Some old) c keep_bytes = Done SatTrue.
Proof.
  destruct C61_nonvacuous as (P1 & P2 & HR & HS & HN & _). cbv zeta in *. exists P1, P2. intros M HM.
  split; [exact (C69_first Ec0 Ec1 cycle01 halo_01 P1 P2 keep_both 4 any_bits M keep_bytes HR HM (keep_tidy _) (HS M HM))|].
  intros old HH EO. exact (C69_next Ec0 Ec1 cycle01 halo_01 P1 P2 keep_both 4 any_bits M old keep_bytes HR HM (keep_tidy _) HH (HN old EO)).
Qed.
