(** C74: what the attack of C73 means for the program examples/bitcoin.rs.  The payloads
    are those of [pack_payload_bytes] (Model/Bitcoin.v), [mirrored] and the parts of a
    header are in Spec/BitcoinSpec.v. *)
From Coq Require Import ZArith String List Bool Arith Lia.
From Verif Require Import Model.FieldTrait Model.FieldInst Model.Circuits Model.Boolean Model.Curve Model.Threads Model.Util Model.Rescue Model.Params
  Model.Opening Model.Proofs Model.Recursion Model.RecursiveProof Model.Paper Model.Bitcoin
  Spec.FieldSpec Spec.FieldLaws Spec.CircuitSpec Spec.BoolSpec Spec.BitcoinSpec Spec.CurveSpec Spec.CurveLaws Spec.UtilSpec Spec.SystemSpec Spec.ProofSpec Spec.RecursiveCircuitSpec Spec.UniformSpec Spec.SizeSpec Spec.ChainSpec Spec.AttackSpec
  Proofs.FieldGen Proofs.FpFq Proofs.CurveInst Proofs.CurveTop Proofs.UnpackP Proofs.ProverTop Proofs.UtilTop Proofs.ChainP Proofs.WideGensP
  Properties.ProverProps Properties.RecursiveCircuitProps Properties.RecursiveSystemProps Properties.ChainProps Properties.PaperProps Properties.BitcoinProps Properties.BitcoinMainProps Properties.CheatProps.
Import ListNotations.
Open Scope nat_scope. Open Scope list_scope.
Local Notation length := List.length.

Section Fields.
  Variables (h : Z) (work header : list Z).
  Hypotheses (Hh : (0 <= h < 2 ^ 32)%Z) (Hw : work_bytes work) (Hl : length header = 80).
  Let payload := pack_payload_bytes h work header.
  Lemma u32_byte : Forall byte (u32_to_le h).
  Proof. unfold u32_to_le. apply Forall_forall. intros x Hx. apply in_map_iff in Hx. destruct Hx as (i & <- & _). unfold byte. apply Z.mod_pos_bound. reflexivity. Qed.
  Lemma u32_val : le_val (u32_to_le h) = h.
  Proof.
    unfold u32_to_le. cbn [map seq le_val Z.of_nat]. rewrite !Z.shiftr_div_pow2 by lia.
    change (Z.of_nat 0) with 0%Z. change (Z.of_nat 1) with 1%Z. change (Z.of_nat 2) with 2%Z. change (Z.of_nat 3) with 3%Z.
    change (2 ^ (8 * 0))%Z with 1%Z. change (2 ^ (8 * 1))%Z with 256%Z. change (2 ^ (8 * 2))%Z with 65536%Z. change (2 ^ (8 * 3))%Z with 16777216%Z.
    change (2 ^ 32)%Z with 4294967296%Z in Hh. Z.div_mod_to_equations. lia.
  Qed.
  Lemma payload_length : length payload = 116.
  Proof. unfold payload, pack_payload_bytes, u32_to_le. rewrite !app_length, rev_length, (proj1 Hw), Hl. reflexivity. Qed.
  Lemma payload_fields : height_of (flat_map byte_bits payload) = h /\ chain_work_of (flat_map byte_bits payload) = work_value work /\ header_of (flat_map byte_bits payload) = header_bits header.
  Proof.
    unfold payload, pack_payload_bytes. rewrite !flat_map_app.
    assert (L0 : length (flat_map byte_bits (u32_to_le h)) = 32) by (rewrite bytes_bits_length; reflexivity).
    assert (L1 : length (flat_map byte_bits (rev work)) = 256) by (rewrite bytes_bits_length, rev_length, (proj1 Hw); reflexivity).
    assert (L2 : length (flat_map byte_bits header) = 640) by (rewrite bytes_bits_length, Hl; reflexivity).
    assert (V0 := bytes_bits_val _ u32_byte). rewrite u32_val in V0.
    assert (V1 : bits_val (flat_map byte_bits (rev work)) = work_value work). { apply bytes_bits_val. apply Forall_rev, Hw. }
    revert L0 L1 L2 V0 V1. unfold height_of, chain_work_of, header_of, field_of, header_bits.
    generalize (flat_map byte_bits (u32_to_le h)) (flat_map byte_bits (rev work)) (flat_map byte_bits header). intros A B D L0 L1 L2 V0 V1. split; [|split].
    - rewrite <- V0. f_equal. change (skipn 0 (A ++ B ++ D)) with (A ++ B ++ D). rewrite <- L0, firstn_app, Nat.sub_diag, firstn_O, app_nil_r. apply firstn_all.
    - rewrite <- V1. f_equal. rewrite skipn_app, L0, Nat.sub_diag, (skipn_all2 A) by lia. cbn [app]. change (skipn 0 (B ++ D)) with (B ++ D).
      rewrite firstn_app, L1, Nat.sub_diag, firstn_O, app_nil_r. apply firstn_all2. lia.
    - rewrite app_assoc, skipn_app, app_length, L0, L1. rewrite skipn_all2 by (rewrite app_length; lia). cbn [app]. change (288 - (32 + 256)) with 0. change (skipn 0 D) with D. apply firstn_all2. lia.
  Qed.
End Fields.

(** The program's verifier can be made to accept any height and any chain work, for any
    two linked headers, without a chain of blocks before them. *)
Theorem C74_bitcoin_attack : forall E1 E2 (cy : Cycle E1 E2), halo_cycle E1 E2 cy -> forall P1 P2 M fuel height work work' prev next,
  ready cy P1 P2 bitcoin_circuits 116 has_target -> machine_ok M -> fuel <= 256 -> linked prev next ->
  (0 <= height)%Z -> (height + 1 < 2 ^ 32)%Z -> work_bytes work -> work_bytes work' -> work_value work' = (work_value work + work_of (header_bits next))%Z ->
  let old := pack_payload_bytes height work prev in let new := pack_payload_bytes (height + 1) work' next in
  (forall L1 L2 (OD : Deferred (Scalar E1)), leftovers_dummy M P1 = Some L1 -> leftovers_dummy M P2 = Some L2 -> deferred_dummy (p_k P1) = Some OD ->
    regular P2 (flat_map byte_bits (old ++ leftovers_to_bytes L2 ++ leftovers_to_bytes L1 ++ deferred_to_bytes OD))) ->
  (attack cy M fuel P1 P2 bitcoin_circuits old new = Running /\ no_challenge_found fuel) \/
  exists p, attack cy M fuel P1 P2 bitcoin_circuits old new = Done (Ok p) /\ rp_payload p = new /\
    forall M', machine_ok M' -> verify cy M' p P1 P2 bitcoin_circuits = Done (Ok true).
Proof.
  intros E1 E2 cy HC P1 P2 M fuel height work work' prev next HR HM Hf [L1 L2 T1 T2 HS HMr HH] Hh Hh' W W' EW old new HRg.
  destruct (payload_fields height work prev ltac:(lia) W L1) as (A1 & A2 & A3). fold old in A1, A2, A3.
  destruct (payload_fields (height + 1) work' next ltac:(lia) W' L2) as (B1 & B2 & B3). fold new in B1, B2, B3.
  pose proof (payload_length height work prev W L1) as LO. pose proof (payload_length (height + 1) work' next W' L2) as LN. fold old in LO. fold new in LN.
  assert (HB : provable_block (flat_map byte_bits old) (flat_map byte_bits new)).
  { split; [|rewrite B3; split; [apply T2|exact HMr]]. constructor; rewrite ?A1, ?A2, ?A3, ?B1, ?B2, ?B3; try assumption; try reflexivity. apply T2. }
  assert (HA : can_attack M P1 P2 bitcoin_circuits 116 has_target old new).
  { split; [split; [exact LO|unfold has_target; rewrite A3; exact T1]|]. split; [split; [exact LN|unfold has_target; rewrite B3; exact T2]|]. split; [|exact HRg].
    pose proof (bits_of_bytes _ LO) as X. pose proof (bits_of_bytes _ LN) as Y. destruct HC; [exact (header_accepts Ec1 _ _ _ halo_ec1 X Y HB)|exact (header_accepts Ec0 _ _ _ halo_ec0 X Y HB)]. }
  clearbody old new. destruct (C73_attack E1 E2 cy HC P1 P2 bitcoin_circuits 116 has_target M fuel old new HR HM Hf HA) as [(H & X)|H]; [left; split; [exact H|]|right; exact H].
  clear - HC X. unfold no_challenge_found. destruct HC; [exact X|]. destruct X as [X|X]; [right|left]; exact X.
Qed.

(** Headers 1 and 2 of Bitcoin's chain, as blocks 999999 and 1000000 of a chain that
    claims a work of more than 2^255, with parameters of size 22. *)
Definition header1 : list Z := nth 0 HEADERS [].
Definition header2 : list Z := nth 1 HEADERS [].
Definition heavy : list Z := 128%Z :: repeat 0%Z 31.
Definition heavy' : list Z := 128%Z :: repeat 0%Z 26 ++ [1; 0; 1; 0; 1]%Z.
Lemma heavy_bytes : work_bytes heavy /\ work_bytes heavy' /\ work_value heavy' = (work_value heavy + work_of (header_bits header2))%Z /\ (2 ^ 255 <= work_value heavy)%Z.
Proof.
  split; [split; [reflexivity|]|split; [split; [reflexivity|]|split; [vm_compute; reflexivity|vm_compute; discriminate]]];
    unfold heavy, heavy'; cbn [repeat app]; repeat (constructor; [split; [discriminate|reflexivity]|]); constructor.
Qed.
Lemma headers_linked : linked header1 header2.
Proof. constructor; try (vm_compute; reflexivity); try (vm_compute; repeat split; congruence). Qed.
Lemma first_real : exists payload, length payload = 116 /\ provable_block block0 (flat_map byte_bits payload).
Proof.
  pose proof real_blocks as X. destruct (payloads_from 1 (combine HEADERS CHAIN_WORK)) as [|x l] eqn:E; [discriminate E|]. clear E. cbn [map provable_chain] in X. destruct X as (LN & HB & _).
  exists x. split; [exact (block_bytes _ LN)|exact HB].
Qed.
Theorem C74_history_refuted : exists (P0 : Params Ec0) (P1 : Params Ec1), p_k P0 = 22 /\ p_k P1 = 22 /\ ready cycle01 P0 P1 bitcoin_circuits 116 has_target /\
  forall M fuel, machine_ok M -> fuel <= 256 -> no_challenge_found fuel \/
  exists p, rp_payload p = pack_payload_bytes 1000000 heavy' header2 /\ (2 ^ 255 <= chain_work_of (flat_map byte_bits (rp_payload p)))%Z /\
    forall M', machine_ok M' -> verify cycle01 M' p P0 P1 bitcoin_circuits = Done (Ok true).
Proof.
  destruct (wide_params_exist Ec0_laws 22 ltac:(lia)) as (P0 & K0 & HP0 & A0 & HB0).
  destruct (wide_params_exist Ec1_laws 22 ltac:(lia)) as (P1 & K1 & HP1 & A1 & HB1).
  assert (S0 : starts_well P0) by (destruct (HB0 [true]) as (B & HB); exact (bits_commitment_starts Ec0_laws P0 true [] _ HB)).
  assert (S1 : starts_well P1) by (destruct (HB1 [true]) as (B & HB); exact (bits_commitment_starts Ec1_laws P1 true [] _ HB)).
  exists P0, P1. split; [exact K0|]. split; [exact K1|].
  destruct first_real as (payload & LP & HB).
  assert (HR : ready cycle01 P0 P1 bitcoin_circuits 116 has_target).
  { refine (C67_ready Ec0 Ec1 cycle01 halo_01 P0 P1 machine3 payload _ _ (conj HP0 A0) (conj HP1 A1) S0 S1 machine3_top LP HB _ _).
    - rewrite K1. apply le_n.
    - congruence.
    - intros L OD _ _. apply HB1.
    - intros L OD _ _. apply HB0. }
  split; [exact HR|]. intros M fuel HM Hf. destruct heavy_bytes as (W1 & W2 & W3 & W4). pose proof headers_linked as HL.
  destruct (payload_fields 1000000 heavy' header2 ltac:(lia) W2 (li_next _ _ HL)) as (_ & EC & _).
  assert (HN : (0 <= work_of (header_bits header2))%Z). { unfold work_of. apply Z.div_pos; [vm_compute; discriminate|vm_compute; reflexivity]. }
  revert HL W1 W2 W3 W4 EC HN. generalize header1 header2 heavy heavy'. intros h1 h2 w w' HL W1 W2 W3 W4 EC HN.
  destruct (C74_bitcoin_attack Ec0 Ec1 cycle01 halo_01 P0 P1 M fuel 999999 w w' h1 h2 HR HM Hf HL ltac:(lia) ltac:(lia) W1 W2 W3 ltac:(intros; apply HB1)) as [(_ & X)|(p & _ & E & X)]; [left; exact X|right].
  exists p. change (999999 + 1)%Z with 1000000%Z in E. split; [exact E|]. split; [|exact X]. rewrite E, EC, W3. lia.
Qed.
Print Assumptions C74_bitcoin_attack.
Print Assumptions C74_history_refuted.
