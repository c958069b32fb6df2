(** C67: the program examples/bitcoin.rs runs.  The recursion is ready for its circuit;
    its loop proves and verifies every chain of headers, of any length, that obeys
    Bitcoin's rules and whose mantissas have palindromic bytes (C66); and [main] ends
    without a panic.
    The program is Model/Bitcoin.v; [provable_chain] is in Spec/BitcoinSpec.v. *)
From Coq Require Import ZArith String List Bool Arith Lia.
From Verif Require Import Model.FieldTrait Model.FieldInst Model.Circuits Model.Boolean Model.Curve Model.Threads Model.Util Model.Rescue Model.Params
  Model.Opening Model.Proofs Model.Recursion Model.RecursiveProof Model.Paper Model.Bitcoin
  Spec.FieldLaws Spec.CircuitSpec Spec.BoolSpec Spec.BitcoinSpec Spec.CurveSpec Spec.CurveLaws Spec.UtilSpec Spec.SystemSpec Spec.ProofSpec Spec.RecursiveCircuitSpec Spec.UniformSpec Spec.SizeSpec Spec.ChainSpec
  Proofs.ParamsP Proofs.FieldGen Proofs.FpFq Proofs.CurveInst Proofs.CurveTop Proofs.CircuitP Proofs.UnpackP Proofs.ProverTop Proofs.UtilTop Proofs.CostP Proofs.WideGensP Proofs.ChainP
  Proofs.AlikeBitcoinP Proofs.CostBitcoinP
  Properties.ParamsProps Properties.ProverProps Properties.RecursiveCircuitProps Properties.RecursiveSystemProps Properties.SizeProps Properties.ChainProps Properties.PaperProps Properties.BitcoinProps.
From Verif Require Export Spec.BitcoinChainSpec.
Import ListNotations.
Open Scope nat_scope. Open Scope list_scope.
Local Notation length := List.length.

Lemma fe_256 C r : halo_curve C r -> forall x : Base C, length (fe_bits x) = 256.
Proof. intros [|] x; [exact (proj1 (fe_bits_val Fq_laws x))|exact (proj1 (fe_bits_val Fp_laws x))]. Qed.
Lemma header_accepts C r ob nb : halo_curve C r -> length ob = 928 -> length nb = 928 -> provable_block ob nb -> accepts (F := Base C) bitcoin_circuit ob nb.
Proof.
  assert (X : forall (F : Field) p v, FieldLaws F p v -> length ob = 928 -> length nb = 928 -> provable_block ob nb -> accepts (F := F) bitcoin_circuit ob nb).
  { intros F p v FL LO LN (HE & HM & HR) w one w1 o n Ho Hn. apply (proj1 (C66_bitcoin_honest F p v FL w one w1 o n ob nb Ho Hn)); try assumption; lia. }
  intros [|]; [exact (X _ _ _ Fq_laws)|exact (X _ _ _ Fp_laws)].
Qed.
Lemma provable_ok ob nb : provable_block ob nb -> has_target nb.
Proof. intros (HE & HM & _). split; [apply HE|exact HM]. Qed.

Lemma block0_length : length block0 = 928.
Proof. vm_compute. reflexivity. Qed.
Lemma bits_of_bytes payload : length payload = 116 -> length (flat_map byte_bits payload) = 928.
Proof.
  intro H. assert (E : length (flat_map byte_bits payload) = 8 * length payload).
  { clear H. induction payload as [|b bs IH]; [reflexivity|]. cbn [flat_map]. rewrite app_length, IH. cbn [length]. unfold byte_bits. rewrite map_length, seq_length. lia. }
  rewrite E, H. reflexivity.
Qed.

(** The recursion is ready for the Bitcoin circuit: the conditions of C61 hold if there
    is a first block. *)
Theorem C67_ready : forall E1 E2 (cy : Cycle E1 E2), halo_cycle E1 E2 cy -> forall P1 P2 M payload,
  22 <= p_k P2 -> p_k P1 = p_k P2 -> made_params P1 -> made_params P2 -> starts_well P1 -> starts_well P2 ->
  machine_ok M -> length payload = 116 -> provable_block block0 (flat_map byte_bits payload) ->
  starts_regularly M P1 P2 bitcoin_circuits -> starts_regularly M P2 P1 bitcoin_circuits ->
  ready cy P1 P2 bitcoin_circuits 116 has_target.
Proof.
  intros E1 E2 cy HC P1 P2 M payload Hk Ek M1 M2 S1 S2 HM HL HB T1 T2.
  pose proof (bits_of_bytes payload HL) as HL8. pose proof block0_length as L0.
  assert (L1 : forall F, length (base_payload (@bitcoin_circuit F)) = 8 * 116) by (intro F; exact L0).
  assert (A0 := header_accepts Ec0 _ block0 _ halo_ec0 L0 HL8 HB). assert (A1 := header_accepts Ec1 _ block0 _ halo_ec1 L0 HL8 HB).
  assert (U0 := bitcoin_uniform (fe_256 Ec0 _ halo_ec0)). assert (U1 := bitcoin_uniform (fe_256 Ec1 _ halo_ec1)).
  assert (I0 := bitcoin_size (8 * 116) (fe_256 Ec0 _ halo_ec0)). assert (I1 := bitcoin_size (8 * 116) (fe_256 Ec1 _ halo_ec1)).
  assert (PO : payload_ok 116 has_target payload) by (split; [exact HL|exact (provable_ok _ _ HB)]).
  destruct HC.
  - refine (C63_ready Ec0 Ec1 cycle01 halo_01 P1 P2 bitcoin_circuits 116 has_target 503396 504531 503396 504531 M payload payload Hk Ek M1 M2 S1 S2 U1 U0 (L1 _) (L1 _) I1 _ _ I0 _ _ HM (conj PO (conj A1 T1)) (conj PO (conj A0 T2))); lia.
  - refine (C63_ready Ec1 Ec0 cycle10 halo_10 P1 P2 bitcoin_circuits 116 has_target 503396 504531 503396 504531 M payload payload Hk Ek M1 M2 S1 S2 U0 U1 (L1 _) (L1 _) I0 _ _ I1 _ _ HM (conj PO (conj A0 T1)) (conj PO (conj A1 T2))); lia.
Qed.
Print Assumptions C67_ready.

Lemma bind_assoc {A B C} (o : outcome A) (f : A -> outcome B) (g : B -> outcome C) : out_bind (out_bind o f) g = out_bind o (fun a => out_bind (f a) g).
Proof. destruct o; reflexivity. Qed.
Section Steps.
  Context {E1 E2 : Curve} (cy : Cycle E1 E2) (HC : halo_cycle E1 E2 cy).
  Variables (P1 : Params E1) (P2 : Params E2).
  Hypothesis HR : ready cy P1 P2 bitcoin_circuits 116 has_target.
  Local Notation made p := (history 116 has_target E1 E2 cy P1 P2 bitcoin_circuits p).
  Lemma step_ok ob nb : length ob = 928 -> length nb = 928 -> provable_block ob nb -> accepts (on_scalar1 (@bitcoin_circuits E1 E2)) ob nb.
  Proof. destruct HC; intros; [exact (header_accepts Ec1 _ _ _ halo_ec1 H H0 H1)|exact (header_accepts Ec0 _ _ _ halo_ec0 H H0 H1)]. Qed.
  Lemma block_ends M M' fuel old input (K : RecursiveProof E1 E2 -> outcome unit) : machine_ok M' ->
    (create_proof cy M fuel P1 P2 old bitcoin_circuits input = Running /\ exists t, reached t /\ no_challenge (C := E1) fuel t) \/
    (exists p, create_proof cy M fuel P1 P2 old bitcoin_circuits input = Done (Ok p) /\ made p) ->
    (forall p, rp_payload p = input -> made p -> ends fuel (K p)) ->
    ends fuel (out_bind (bitcoin_step cy M M' fuel P1 P2 old input) K).
  Proof.
    intros HM' [(E & H)|(p & E & H)] HK; unfold bitcoin_step, out_unwrap; rewrite E; cbn [out_bind].
    - right. split; [reflexivity|]. clear -H HC. destruct HC; [left|right]; exact H.
    - rewrite (C61_verifies E1 E2 cy HC P1 P2 bitcoin_circuits 116 has_target M' p HR HM' H). cbn [out_bind out_assert].
      apply HK; [exact (created_payload _ _ _ _ _ _ _ _ _ E)|exact H].
  Qed.
  Lemma block_first M M' fuel input (K : RecursiveProof E1 E2 -> outcome unit) : machine_ok M -> machine_ok M' -> fuel <= 256 ->
    starts_regularly M P1 P2 (@bitcoin_circuits E1 E2) -> length input = 116 -> provable_block block0 (flat_map byte_bits input) ->
    (forall p, rp_payload p = input -> made p -> ends fuel (K p)) ->
    ends fuel (out_bind (bitcoin_step cy M M' fuel P1 P2 None input) K).
  Proof.
    intros HM HM' Hf HS HL HB. apply block_ends; [exact HM'|]. pose proof block0_length as L0.
    assert (CS : can_start M P1 P2 bitcoin_circuits 116 has_target input).
    { split; [split; [exact HL|exact (provable_ok _ _ HB)]|]. split; [exact (step_ok block0 _ L0 (bits_of_bytes _ HL) HB)|exact HS]. }
    destruct (C61_first E1 E2 cy HC P1 P2 bitcoin_circuits 116 has_target M fuel input HR HM CS) as [H|(p & E)]; [left; exact H|right]. exists p. split; [exact E|].
    exact (history_first 116 has_target E1 E2 cy P1 P2 bitcoin_circuits M fuel input p HM Hf CS E).
  Qed.
  Lemma block_next M M' fuel old input (K : RecursiveProof E1 E2 -> outcome unit) : machine_ok M -> machine_ok M' -> fuel <= 256 ->
    goes_on_regularly (swap cy) P2 P1 bitcoin_circuits 116 has_target -> length (rp_payload old) = 116 ->
    history 116 has_target E2 E1 (swap cy) P2 P1 bitcoin_circuits old ->
    length input = 116 -> provable_block (flat_map byte_bits (rp_payload old)) (flat_map byte_bits input) ->
    (forall p, rp_payload p = input -> made p -> ends fuel (K p)) ->
    ends fuel (out_bind (bitcoin_step cy M M' fuel P1 P2 (Some old) input) K).
  Proof.
    intros HM HM' Hf HS LO HO HL HB. apply block_ends; [exact HM'|].
    assert (CC : can_continue P2 bitcoin_circuits 116 has_target old input).
    { split; [split; [exact HL|exact (provable_ok _ _ HB)]|]. split; [exact (step_ok _ _ (bits_of_bytes _ LO) (bits_of_bytes _ HL) HB)|apply HS, HO]. }
    destruct (C61_next E1 E2 cy HC P1 P2 bitcoin_circuits 116 has_target M fuel old input HR HM HO CC) as [H|(p & E)]; [left; exact H|right]. exists p. split; [exact E|].
    exact (history_next 116 has_target E1 E2 cy P1 P2 bitcoin_circuits M fuel old input p HM Hf HO CC E).
  Qed.
End Steps.

Lemma block_bytes payload : length (flat_map byte_bits payload) = 928 -> length payload = 116.
Proof.
  assert (E : length (flat_map byte_bits payload) = 8 * length payload).
  { induction payload as [|b bs IH]; [reflexivity|]. cbn [flat_map]. rewrite app_length, IH. cbn [length]. unfold byte_bits. rewrite map_length, seq_length. lia. }
  rewrite E. lia.
Qed.
Section Loop.
  Variables (M : nat -> Machine) (fuel : nat) (P0 : Params Ec0) (P1 : Params Ec1).
  Hypotheses (HM : forall i, machine_ok (M i)) (Hf : fuel <= 256).
  Hypothesis HR : ready cycle10 P1 P0 bitcoin_circuits 116 has_target.
  Hypotheses (G1 : goes_on_regularly cycle10 P1 P0 bitcoin_circuits 116 has_target) (G0 : goes_on_regularly cycle01 P0 P1 bitcoin_circuits 116 has_target).
  Let HR' : ready cycle01 P0 P1 bitcoin_circuits 116 has_target := ready_swap cycle10 P1 P0 bitcoin_circuits 116 has_target HR.
  (** what the program holds between two blocks *)
  Definition holds (old : list bool) (st : CycleStep) : Prop :=
    match st with
    | StepA (Some p) => flat_map byte_bits (rp_payload p) = old /\ history 116 has_target Ec0 Ec1 cycle01 P0 P1 bitcoin_circuits p
    | StepB (Some p) => flat_map byte_bits (rp_payload p) = old /\ history 116 has_target Ec1 Ec0 cycle10 P1 P0 bitcoin_circuits p
    | _ => False
    end.
  Lemma loop_ends : forall blocks i old st, length old = 928 -> holds old st -> provable_chain old (map (flat_map byte_bits) (payloads_from i blocks)) ->
    ends fuel (bitcoin_loop M fuel P0 P1 st i blocks).
  Proof.
    induction blocks as [|[header work] blocks IH]; intros i old st LO HH HB; cbn [bitcoin_loop]; [left; reflexivity|].
    cbn [payloads_from map provable_chain] in HB. destruct HB as (LN & HB & HB'). unfold pack_payload_bytes. cbv zeta.
    revert LN HB HB'. generalize (u32_to_le (Z.of_nat i) ++ rev work ++ header) as input. intros input LN HB HB'.
    pose proof (block_bytes _ LN) as LI. generalize (M (2 * i)) (M (2 * i + 1)) (HM (2 * i)) (HM (2 * i + 1)). intros Ma Mb Ha Hb.
    destruct st as [[p|]|[p|]]; cbn [holds] in HH; try contradiction; destruct HH as [EP HP]; subst old; pose proof (block_bytes _ LO) as LP.
    - rewrite bind_assoc. refine (block_next cycle10 halo_10 P1 P0 HR Ma Mb fuel p input _ Ha Hb Hf G0 LP HP LI HB _). intros q Q1 Q2. cbn [out_bind].
      apply (IH (S i) (flat_map byte_bits input)); [exact LN| |exact HB']. cbn [holds]. rewrite Q1. split; [reflexivity|exact Q2].
    - rewrite bind_assoc. refine (block_next cycle01 halo_01 P0 P1 HR' Ma Mb fuel p input _ Ha Hb Hf G1 LP HP LI HB _). intros q Q1 Q2. cbn [out_bind].
      apply (IH (S i) (flat_map byte_bits input)); [exact LN| |exact HB']. cbn [holds]. rewrite Q1. split; [reflexivity|exact Q2].
  Qed.
  Lemma loop_starts blocks i : starts_regularly (M (2 * i)) P1 P0 bitcoin_circuits -> provable_chain block0 (map (flat_map byte_bits) (payloads_from i blocks)) ->
    ends fuel (bitcoin_loop M fuel P0 P1 (StepA None) i blocks).
  Proof.
    destruct blocks as [|[header work] blocks]; intros HS HB; cbn [bitcoin_loop]; [left; reflexivity|].
    cbn [payloads_from map provable_chain] in HB. destruct HB as (LN & HB & HB'). unfold pack_payload_bytes. cbv zeta.
    revert LN HB HB'. generalize (u32_to_le (Z.of_nat i) ++ rev work ++ header) as input. intros input LN HB HB'.
    pose proof (block_bytes _ LN) as LI. revert HS. generalize (HM (2 * i)) (HM (2 * i + 1)). generalize (M (2 * i)) (M (2 * i + 1)). intros Ma Mb Ha Hb HS.
    rewrite bind_assoc. refine (block_first cycle10 halo_10 P1 P0 HR Ma Mb fuel input _ Ha Hb Hf HS LI HB _). intros q Q1 Q2. cbn [out_bind].
    apply (loop_ends blocks (S i) (flat_map byte_bits input)); [exact LN| |exact HB']. cbn [holds]. rewrite Q1. split; [reflexivity|exact Q2].
  Qed.
End Loop.

(** The loop of [main], for a chain of any length after the genesis block: it ends
    normally, unless the search for a challenge fails within the given number of tries. *)
Theorem C67_chain : forall (M : nat -> Machine) fuel (P0 : Params Ec0) (P1 : Params Ec1) blocks,
  (forall i, machine_ok (M i)) -> fuel <= 256 -> 22 <= p_k P0 -> p_k P1 = p_k P0 -> made_params P0 -> made_params P1 ->
  starts_well P0 -> starts_well P1 -> starts_regularly (M 2) P1 P0 bitcoin_circuits -> starts_regularly (M 2) P0 P1 bitcoin_circuits ->
  goes_on_regularly cycle10 P1 P0 bitcoin_circuits 116 has_target -> goes_on_regularly cycle01 P0 P1 bitcoin_circuits 116 has_target ->
  provable_chain block0 (map (flat_map byte_bits) (payloads_from 1 blocks)) ->
  bitcoin_loop M fuel P0 P1 (StepA None) 1 blocks = Done tt \/
  (bitcoin_loop M fuel P0 P1 (StepA None) 1 blocks = Running /\ no_challenge_found fuel).
Proof.
  intros M fuel P0 P1 blocks HM Hf K EK M0 M1 S0 S1 T1 T0 G1 G0 HB.
  destruct blocks as [|[header work] blocks]; [left; reflexivity|].
  assert (HR : ready cycle10 P1 P0 bitcoin_circuits 116 has_target).
  { cbn [payloads_from map provable_chain] in HB. destruct HB as (LN & HB & _).
    exact (C67_ready Ec1 Ec0 cycle10 halo_10 P1 P0 (M 2) _ K EK M1 M0 S1 S0 (HM 2) (block_bytes _ LN) HB T1 T0). }
  exact (loop_starts M fuel P0 P1 HM Hf HR G1 G0 _ 1 T1 HB).
Qed.
Print Assumptions C67_chain.

(** The ten blocks of the program are Bitcoin's blocks 1 to 10: each extends the one
    before it, and the mantissa ffff00 of their targets is palindromic. *)
Lemma real_blocks : provable_chain block0 (map (flat_map byte_bits) (payloads_from 1 (combine HEADERS CHAIN_WORK))).
Proof.
  cbn [payloads_from map provable_chain combine HEADERS CHAIN_WORK].
  repeat (split; [vm_compute; reflexivity|]; split;
    [split; [constructor; [vm_compute; reflexivity|vm_compute; reflexivity|vm_compute; reflexivity|vm_compute; split; congruence|vm_compute; reflexivity]|
             split; [vm_compute; discriminate|vm_compute; repeat split]]|]).
  exact I.
Qed.

Lemma main_ends (M : nat -> Machine) fuel rng0 rng1 k blocks : 22 <= k -> k <= 30 ->
  (forall i, machine_ok (M i)) -> fuel <= 256 -> (forall i j, random (rng0 i j)) -> (forall i j, random (rng1 i j)) ->
  (forall i j, rng0 i j <> repeat 0%Z 32) -> (forall i j, rng1 i j <> repeat 0%Z 32) ->
  (forall P0 P1, params_new (C := Ec0) rng0 fuel k = Done P0 -> params_new (C := Ec1) rng1 fuel k = Done P1 ->
     starts_well P0 /\ starts_well P1 /\
     starts_regularly (M 2) P1 P0 bitcoin_circuits /\ starts_regularly (M 2) P0 P1 bitcoin_circuits /\
     goes_on_regularly cycle10 P1 P0 bitcoin_circuits 116 has_target /\ goes_on_regularly cycle01 P0 P1 bitcoin_circuits 116 has_target) ->
  provable_chain block0 (map (flat_map byte_bits) (payloads_from 1 blocks)) ->
  let main := out_bind (params_new (C := Ec0) rng0 fuel k) (fun params0 => out_bind (params_new (C := Ec1) rng1 fuel k) (fun params1 =>
    bitcoin_loop M fuel params0 params1 (StepA None) 1 blocks)) in
  main = Done tt \/
  (main = Running /\ (params_new (C := Ec0) rng0 fuel k = Running \/ params_new (C := Ec1) rng1 fuel k = Running \/ no_challenge_found fuel)).
Proof.
  intros Hk Hk' HM Hf R0 R1 Z0 Z1 HX HB.
  apply main_cases.
  - intro E0. destruct (C53_params_new_panics Ec0 _ halo_ec0 rng0 fuel k R0 E0) as [H|(i & j & H)]; [lia|destruct (Z0 _ _ H)].
  - intro E1. destruct (C53_params_new_panics Ec1 _ halo_ec1 rng1 fuel k R1 E1) as [H|(i & j & H)]; [lia|destruct (Z1 _ _ H)].
  - intros P0 P1 E0 E1. destruct (HX P0 P1 E0 E1) as (S0 & S1 & T1 & T0 & G1 & G0). clear HX.
    destruct (new_params _ _ halo_ec0 rng0 fuel k P0 Hk' R0 E0) as (M0 & K0). destruct (new_params _ _ halo_ec1 rng1 fuel k P1 Hk' R1 E1) as (M1 & K1). clear E0 E1.
    assert (K : 22 <= p_k P0) by (rewrite K0; exact Hk). assert (EK : p_k P1 = p_k P0) by (rewrite K0, K1; reflexivity).
    exact (C67_chain M fuel P0 P1 blocks HM Hf K EK M0 M1 S0 S1 T1 T0 G1 G0 HB).
Qed.

(** The program examples/bitcoin.rs ends normally: every [unwrap] and [assert!] of [main]
    succeeds, for its ten blocks.  Otherwise: random points were not found, or the search
    for a challenge failed, both within the given number of tries. *)
Theorem C67_bitcoin : forall (M : nat -> Machine) fuel rng0 rng1,
  (forall i, machine_ok (M i)) -> fuel <= 256 -> (forall i j, random (rng0 i j)) -> (forall i j, random (rng1 i j)) ->
  (forall i j, rng0 i j <> repeat 0%Z 32) -> (forall i j, rng1 i j <> repeat 0%Z 32) ->
  (forall P0 P1, params_new (C := Ec0) rng0 fuel 22 = Done P0 -> params_new (C := Ec1) rng1 fuel 22 = Done P1 ->
     starts_well P0 /\ starts_well P1 /\
     starts_regularly (M 2) P1 P0 bitcoin_circuits /\ starts_regularly (M 2) P0 P1 bitcoin_circuits /\
     goes_on_regularly cycle10 P1 P0 bitcoin_circuits 116 has_target /\ goes_on_regularly cycle01 P0 P1 bitcoin_circuits 116 has_target) ->
  bitcoin_main M fuel rng0 rng1 = Done tt \/
  (bitcoin_main M fuel rng0 rng1 = Running /\
   (params_new (C := Ec0) rng0 fuel 22 = Running \/ params_new (C := Ec1) rng1 fuel 22 = Running \/ no_challenge_found fuel)).
Proof.
  intros M fuel rng0 rng1 HM Hf R0 R1 Z0 Z1 HX. pose proof real_blocks as HB. revert HB. unfold bitcoin_main. generalize (combine HEADERS CHAIN_WORK). intros blocks HB.
  refine (main_ends M fuel rng0 rng1 22 blocks _ _ HM Hf R0 R1 Z0 Z1 HX HB); repeat constructor.
Qed.
Print Assumptions C67_bitcoin.

(** Parameters of size 22 for which all that is asked of the parameters holds *)
Example C67_nonvacuous : exists (P0 : Params Ec0) (P1 : Params Ec1), p_k P0 = 22 /\ p_k P1 = 22 /\ made_params P0 /\ made_params P1 /\
  starts_well P0 /\ starts_well P1 /\ (forall M, starts_regularly M P1 P0 bitcoin_circuits /\ starts_regularly M P0 P1 bitcoin_circuits) /\
  goes_on_regularly cycle10 P1 P0 bitcoin_circuits 116 has_target /\ goes_on_regularly cycle01 P0 P1 bitcoin_circuits 116 has_target.
Proof.
  destruct (wide_params_exist Ec0_laws 22 ltac:(lia)) as (P0 & K0 & HP0 & A0 & HB0).
  destruct (wide_params_exist Ec1_laws 22 ltac:(lia)) as (P1 & K1 & HP1 & A1 & HB1).
  assert (S0 : starts_well P0) by (destruct (HB0 [true]) as (B & HB); exact (bits_commitment_starts Ec0_laws P0 true [] _ HB)).
  assert (S1 : starts_well P1) by (destruct (HB1 [true]) as (B & HB); exact (bits_commitment_starts Ec1_laws P1 true [] _ HB)).
  exists P0, P1. split; [exact K0|]. split; [exact K1|]. split; [split; assumption|]. split; [split; assumption|]. split; [exact S0|]. split; [exact S1|].
  split; [intro M; split; intros L OD _ _; [apply HB0|apply HB1]|]. split; [intros p _; apply HB1|intros p _; apply HB0].
Qed.
