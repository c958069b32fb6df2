(** C70: the development helpers [dev::constraint_count] and
    [dev::recursive_constraint_count] (src/dev.rs) report the size of the system that
    the prover and the verifier use, so that they tell which parameters are large
    enough.  [laid_out] (the reference layout) and [can_prove] are in Spec/SystemSpec.v
    and Spec/ProofSpec.v, [half_ready] and [ready] in Spec/ChainSpec.v. *)
From Coq Require Import ZArith List Bool Arith Lia String.
From Verif Require Import Model.FieldTrait Model.FieldInst Model.Circuits Model.Boolean Model.Curve Model.Threads Model.Util Model.Rescue Model.Params
  Model.Opening Model.Proofs Model.Recursion Model.RecursiveProof Model.Dev Model.DevRecursive
  Spec.FieldLaws Spec.CircuitSpec Spec.BoolSpec Spec.CurveSpec Spec.UtilSpec Spec.SystemSpec Spec.ProofSpec Spec.RecursiveCircuitSpec Spec.UniformSpec Spec.ChainSpec Spec.DevSpec
  Proofs.FpFq Proofs.CurveInst Proofs.ProverTop Proofs.TidyP Proofs.CountP Proofs.CountLayoutP Proofs.ChainP Proofs.DevRecursiveP
  Properties.ProverProps Properties.RecursiveCircuitProps Properties.RecursiveSystemProps Properties.SizeProps Properties.ChainProps Properties.DevRecursiveProps.
Import ListNotations.
Open Scope nat_scope. Open Scope list_scope.
Local Notation length := List.length.

(** Any circuit with tidy names: the entry of the root counts the gates and the linear
    constraints of the circuit's system. *)
Theorem C70_counts : forall (F : Field) (circuit : Var -> CS F unit) t, tidy 0 (circuit (VA 1)) -> laid_out false circuit t ->
  exists m n, constraint_count circuit = Some (Ok m) /\ find_count "" m = Some n /\
    total_mults n = l_gates t /\ total_lcs n = length (l_lcs t).
Proof. exact @count_layout. Qed.
Print Assumptions C70_counts.

(** The recursive circuit: the counts for one payload decide whether parameters of E1
    are large enough, for all payloads of this length. *)
Theorem C70_decides : forall E1 E2 (cy : Cycle E1 E2), halo_cycle E1 E2 cy -> forall P1 P2 c len ok payload m n,
  good_params P1 -> Forall2 (fun G xy => represents G (Some xy)) (p_generators P1) (p_generators_xy P1) -> starts_well P1 ->
  2 <= p_k P2 -> good_generators P2 -> starts_well P2 ->
  uniform ok (on_scalar1 c) -> length (base_payload (on_scalar1 c)) = 8 * len -> (forall one ob nb, tidy 0 (inner_synthesize (on_scalar1 c) one ob nb)) ->
  payload_ok len ok payload -> recursive_constraint_count cy P2 c payload = Some (Ok m) -> find_count "" m = Some n ->
  (half_ready cy P1 P2 c len ok <-> total_mults n < p_n P1 /\ total_lcs n < p_d P1).
Proof.
  intros E1 E2 cy HC P1 P2 c len ok payload m n HP1 HA HS1 Hk HG HS HU HB HT HP E En.
  destruct HC; [exact (count_decides halo_ec1 cycle01 P1 P2 c len ok HU HT Hk HG HS payload m n HP1 HA HS1 HB HP E En)|
                exact (count_decides halo_ec0 cycle10 P1 P2 c len ok HU HT Hk HG HS payload m n HP1 HA HS1 HB HP E En)].
Qed.
Print Assumptions C70_decides.
(** When the recursion is ready the helper returns, with the same counts for every
    payload, and these are the sizes of every system that a proof is made for. *)
Theorem C70_ready : forall E1 E2 (cy : Cycle E1 E2), halo_cycle E1 E2 cy -> forall P1 P2 c len ok, ready cy P1 P2 c len ok ->
  (forall one ob nb, tidy 0 (inner_synthesize (on_scalar1 c) one ob nb)) ->
  exists gates lines, gates < p_n P1 /\ lines < p_d P1 /\ forall payload, payload_ok len ok payload ->
    (exists m n, recursive_constraint_count cy P2 c payload = Some (Ok m) /\ find_count "" m = Some n /\ total_mults n = gates /\ total_lcs n = lines) /\
    forall prover_circuit s, can_prove P1 prover_circuit (step_circuit cy P2 c payload) s -> l_gates s = gates /\ length (l_lcs s) = lines.
Proof.
  intros E1 E2 cy HC P1 P2 c len ok HR HT.
  assert (X : forall r2, halo_curve E2 r2 -> exists gates lines, gates < p_n P1 /\ lines < p_d P1 /\ forall payload, payload_ok len ok payload ->
    (exists m n, recursive_constraint_count cy P2 c payload = Some (Ok m) /\ find_count "" m = Some n /\ total_mults n = gates /\ total_lcs n = lines) /\
    forall prover_circuit s, can_prove P1 prover_circuit (step_circuit cy P2 c payload) s -> l_gates s = gates /\ length (l_lcs s) = lines).
  { intros r2 H2. pose proof (rk cy P1 P2 c len ok HR) as (_ & Hk & _). pose proof (gens2 cy P1 P2 c len ok HR) as HG.
    pose proof HR as (_ & [_ _ _ HU _ (pl & t & HP & HL & F1 & F2)] & [_ _ HS _ _ _]).
    exists (l_gates t), (length (l_lcs t)). split; [exact F1|]. split; [exact F2|]. intros payload HP'.
    pose proof (count_returns H2 cy P2 c len ok HU HT (proj1 Hk) HG HS payload pl t HP' HP HL) as (m & n & E & En & X1 & X2).
    split; [exists m, n; auto|]. intros pc s (_ & _ & (t' & HL' & S1 & S2 & _) & _).
    destruct (count_same H2 cy P2 c len ok HU HT (proj1 Hk) HG HS payload payload m n t' HP' HP' E En HL') as (Y1 & Y2). rewrite S1, S2. lia. }
  destruct HC; [exact (X _ halo_ec1)|exact (X _ halo_ec0)].
Qed.
Print Assumptions C70_ready.

(** C61's parameters and application meet these hypotheses. *)
Example C70_nonvacuous : exists (P1 : Params Ec0) (P2 : Params Ec1) m n, ready cycle01 P1 P2 keep_both 4 any_bits /\
  recursive_constraint_count cycle01 P2 keep_both keep_bytes = Some (Ok m) /\ find_count "" m = Some n /\ total_mults n < p_n P1 /\ total_lcs n < p_d P1.
Proof.
  destruct C61_nonvacuous as (P1 & P2 & HR & _).
  destruct (C70_ready Ec0 Ec1 cycle01 halo_01 P1 P2 keep_both 4 any_bits HR (keep_tidy _)) as (g & l & F1 & F2 & H).
  destruct (H keep_bytes (conj eq_refl I)) as ((m & n & E & En & X1 & X2) & _).
  exists P1, P2, m, n. rewrite X1, X2. auto.
Qed.
