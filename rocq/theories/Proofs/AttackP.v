(** The attacker's program of Spec/AttackSpec.v makes proofs that are accepted. *)
From Coq Require Import String List Bool Arith ZArith Lia.
From Verif Require Import Lib.AbGroup Lib.Abel Model.FieldTrait Model.FieldInst Model.Circuits Model.Num Model.Boolean Model.Curve Model.Threads Model.Util Model.Rescue Model.Params
  Model.Opening Model.Proofs Model.Recursion Model.RecursiveProof
  Spec.FieldLaws Spec.CircuitSpec Spec.BoolSpec Spec.SystemSpec Spec.CurveSpec Spec.CurveLaws Spec.UtilSpec Spec.ProofSpec Spec.RecursionSpec Spec.VerifySpec Spec.RecursiveCircuitSpec Spec.UniformSpec Spec.ChainSpec Spec.CheatSpec Spec.AttackSpec
  Proofs.FieldGen Proofs.FpFq Proofs.CurveInst Proofs.CurveTop Proofs.MultiexpP Proofs.OpeningP Proofs.OpeningTop Proofs.ProverLemmas Proofs.ProverTop Proofs.UnpackP Proofs.EncodeP Proofs.RecursionGlue Proofs.SystemP Proofs.BoolP
  Proofs.AlikeEccP Proofs.AlikeRecursionP Proofs.RecursiveSystemP Proofs.FakeP Proofs.CheatStepP Proofs.ChainP
  Properties.ProverProps Properties.RecursiveCircuitProps Properties.RecursiveSystemProps.
Import ListNotations.
Open Scope nat_scope. Open Scope list_scope.
Local Notation length := List.length.

(** The fake proof, and that the dishonest prover's circuit takes it *)
Definition dishonest {C : Curve} (T Dp : C) : list (C -> C -> C) := [c_add; c_add; (fun _ _ => T); (fun _ _ => Dp)].
Section Fake.
  Context {C : Curve} {q vb r vs} (CL : CurveLaws C q vb r vs).
  Hypotheses (HB1 : f_BETA = BETA_BASE C) (HB2 : f_BETA = BETA_SCALAR C).
  Lemma fake_step (P : Params C) (circuit : Var -> CS (Scalar C) unit) t inputs K v dm M fuel : good_params P -> machine_ok M ->
    2 <= p_k P -> laid_out false circuit t -> length inputs = length (l_inputs t) - 1 -> length (l_lcs t) < p_d P ->
    honest_leftovers P circuit dm -> y_new dm = fzero -> s_new_commitment dm = c_zero -> Forall small (y_new dm :: challenges_sq_packed_new dm) ->
    commitment_to (p_generators P) false v K -> (forall i, coeff v i = input_at (l_inputs t) (fone :: inputs) i) -> fuel <= 256 ->
    (fake M fuel P circuit inputs K dm = Running /\ exists t, reached t /\ no_challenge (C := C) fuel t) \/
    exists pf left T Dp L' D forks, fake M fuel P circuit inputs K dm = Done (Ok (pf, left, T, Dp)) /\
      proof_verify M pf left P circuit inputs (Some K) = Done (Ok (true, L', D, forks)) /\
      Forall (fun sum => forall c1 c2 : C, valid c1 -> valid c2 -> valid (sum c1 c2)) (dishonest T Dp) /\
      proof_of_points (p_k P) pf dm /\ deferred_verify D (p_k P) = Some true /\ honest_leftovers P circuit L' /\
      Forall small (y_new L' :: challenges_sq_packed_new L') /\ length (challenges_sq_packed_new L') = p_k P /\ Forall small (half_parts D) /\
      length (d_challenges_sq_packed_old D) = p_k P /\ length (d_challenges_sq_packed_new D) = p_k P /\ length forks = p_k P /\
      forall one (w : assignment (Base C)), w one = fone -> forall (self : VerificationCircuit C) OD payload lb B,
      vc_base_case self = Some false -> vc_proof self = Some (mkOld pf dm OD payload) -> vc_forkvalues self = Some forks -> vc_old_leftovers self = Some lb ->
      vc_new_leftovers self = Some L' -> vc_deferred self = Some D -> vc_params self = P -> good_generators P ->
      bits_commitment P (flat_map byte_bits payload ++ flat_map byte_bits (leftovers_to_bytes dm) ++ flat_map byte_bits lb ++ flat_map byte_bits (deferred_to_bytes OD)) B ->
      CurveSpec.represents K B ->
      length (d_challenges_sq_packed_old OD) = p_k P -> length (d_challenges_sq_packed_new OD) = p_k P ->
      Forall small (half_parts OD) -> deferred_verify OD (p_k P) = Some true ->
      (forall ob nb, Forall2 (bit_has w) ob (flat_map byte_bits payload) -> Forall2 (bit_has w) nb (flat_map byte_bits (vc_new_payload self)) -> complete w (inner_synthesize (vc_inner self) one ob nb) (fun _ => True)) ->
      complete w (vc_synthesize_with one (endo_chain_with one (dishonest T Dp)) self) (fun _ => True).
  Proof.
    intros HP HM Hk HT Hin HQ Hd Ey Es HSm HKv Hkc Hf. destruct (good_reps CL P HP) as (gs & HG).
    destruct (fake_ok CL P gs HP HG circuit t inputs K v dm M M fuel HM HM Hk HT Hin HQ Hd Ey HKv Hkc) as [X|(pf & Sv & T & Dp & E & HW & VT & VD & VS & F1 & F2 & F3 & F4 & X)]; [left; exact X|right].
    destruct (X Hf) as (L' & D & forks & V1 & V2 & V3 & V4 & V5).
    destruct (verified_small K (p_k P) pf (virtual_left Sv dm) L' D forks HW (proj1 Hd) HSm V4) as (S1 & S2 & S3 & S4 & S5 & S6 & S7).
    assert (VZ : valid (s_new_commitment dm)). { rewrite Es. eexists. exact (rep0 CL). }
    exists pf, (virtual_left Sv dm), T, Dp, L', D, forks. split; [exact E|]. split; [exact V1|]. split.
    { unfold dishonest. repeat constructor; intros; try assumption; apply (valid_add CL); assumption. }
    split.
    { destruct HW as (HVs & HW & _). split; [|exact HW]. inversion HVs as [|? ? W1 HV1]; subst. inversion HV1 as [|? ? W2 HV2]; subst. inversion HV2 as [|? ? W3 HV3]; subst. inversion HV3 as [|? ? W4 HV4]; subst.
      inversion HV4 as [|? ? W5 HV5]; subst. inversion HV5 as [|? ? W6 HV6]; subst. inversion HV6 as [|? ? W7 HV7]; subst. inversion HV7 as [|? ? W8 _]; subst.
      repeat (constructor; [assumption|]). constructor. }
    split; [exact V2|]. split; [exact V3|]. split; [exact S1|]. split; [exact S2|]. split; [exact S3|]. split; [exact S4|]. split; [exact S5|]. split; [exact S6|].
    intros one w w1 self OD payload lb B I1 I2 I3 I4 I5 I6 I7 HGg HBc HKB O1 O2 O3 O4 HI. subst P.
    apply (cheat_complete CL one w w1 HB1 HB2 self (mkOld pf dm OD payload) lb L' D forks K B Sv T Dp I1 I2 I3 I4 I5 I6 HGg HBc HKB); try assumption.
    - destruct HP as (X1 & _). lia.
    - apply Hd.
  Qed.
End Fake.
Lemma fake_halo C r (HC : halo_curve C r) (P : Params C) (circuit : Var -> CS (Scalar C) unit) t inputs K v dm M fuel : good_params P -> machine_ok M ->
  2 <= p_k P -> laid_out false circuit t -> length inputs = length (l_inputs t) - 1 -> length (l_lcs t) < p_d P ->
  honest_leftovers P circuit dm -> y_new dm = fzero -> s_new_commitment dm = c_zero -> Forall small (y_new dm :: challenges_sq_packed_new dm) ->
  commitment_to (p_generators P) false v K -> (forall i, coeff v i = input_at (l_inputs t) (fone :: inputs) i) -> fuel <= 256 ->
  (fake M fuel P circuit inputs K dm = Running /\ exists t, reached t /\ no_challenge (C := C) fuel t) \/
  exists pf left T Dp L' D forks, fake M fuel P circuit inputs K dm = Done (Ok (pf, left, T, Dp)) /\
    proof_verify M pf left P circuit inputs (Some K) = Done (Ok (true, L', D, forks)) /\
    Forall (fun sum => forall c1 c2 : C, valid c1 -> valid c2 -> valid (sum c1 c2)) (dishonest T Dp) /\
    proof_of_points (p_k P) pf dm /\ deferred_verify D (p_k P) = Some true /\ honest_leftovers P circuit L' /\
    Forall small (y_new L' :: challenges_sq_packed_new L') /\ length (challenges_sq_packed_new L') = p_k P /\ Forall small (half_parts D) /\
    length (d_challenges_sq_packed_old D) = p_k P /\ length (d_challenges_sq_packed_new D) = p_k P /\ length forks = p_k P /\
    forall one (w : assignment (Base C)), w one = fone -> forall (self : VerificationCircuit C) OD payload lb B,
    vc_base_case self = Some false -> vc_proof self = Some (mkOld pf dm OD payload) -> vc_forkvalues self = Some forks -> vc_old_leftovers self = Some lb ->
    vc_new_leftovers self = Some L' -> vc_deferred self = Some D -> vc_params self = P -> good_generators P ->
    bits_commitment P (flat_map byte_bits payload ++ flat_map byte_bits (leftovers_to_bytes dm) ++ flat_map byte_bits lb ++ flat_map byte_bits (deferred_to_bytes OD)) B ->
    CurveSpec.represents K B ->
    length (d_challenges_sq_packed_old OD) = p_k P -> length (d_challenges_sq_packed_new OD) = p_k P ->
    Forall small (half_parts OD) -> deferred_verify OD (p_k P) = Some true ->
    (forall ob nb, Forall2 (bit_has w) ob (flat_map byte_bits payload) -> Forall2 (bit_has w) nb (flat_map byte_bits (vc_new_payload self)) -> complete w (inner_synthesize (vc_inner self) one ob nb) (fun _ => True)) ->
    complete w (vc_synthesize_with one (endo_chain_with one (dishonest T Dp)) self) (fun _ => True).
Proof. destruct HC; [exact (fake_step Ec0_laws eq_refl eq_refl P circuit t inputs K v dm M fuel)|exact (fake_step Ec1_laws eq_refl eq_refl P circuit t inputs K v dm M fuel)]. Qed.

(** The positions of the public inputs of the verifier's circuit *)
Lemma blank_inputs C r (HC : halo_curve C r) {G : Field} (H : Base C = G) (P : Params C) inner ok payload lb (L : Leftovers C) (D : Deferred (Scalar C)) t :
  uniform ok inner -> ok (flat_map byte_bits payload) -> 2 <= p_k P -> good_generators P -> starts_well P ->
  length lb = 144 + 16 * p_k P -> length (challenges_sq_packed_new L) = p_k P -> length (d_challenges_sq_packed_old D) = p_k P -> length (d_challenges_sq_packed_new D) = p_k P ->
  laid_out false (cast (P := fun F => Var -> CS F unit) H (fun one => vc_synthesize one (mkVC P None inner None payload None None None None))) t ->
  l_inputs t = seq 1 (S (length (flat_map byte_bits (payload ++ lb ++ leftovers_to_bytes L ++ deferred_to_bytes D)))).
Proof.
  destruct H. intros HU HOk Hk HG HS L1 L2 L3 L4 HT. set (vc := mkVC _ _ _ _ _ _ _ _ _) in HT.
  pose (full := mkVC P None inner None payload None (Some lb) (Some L) (Some D)).
  assert (SH : shaped vc) by (constructor; discriminate).
  assert (SH' : shaped full). { constructor; cbn; try discriminate; intros ? E; injection E as <-; try split; assumption. }
  destruct (prover_with HC vc full ok [] [] SH SH' HU HOk HOk eq_refl eq_refl eq_refl Hk HG HS (Forall_nil _) (Forall_nil _)) as (_ & X & _).
  destruct (prover_with HC full full ok [] [] SH' SH' HU HOk HOk eq_refl eq_refl eq_refl Hk HG HS (Forall_nil _) (Forall_nil _)) as (_ & _ & _ & Y).
  destruct (X false t HT) as (t' & HT' & (_ & _ & ->)). rewrite (Y t' HT'). unfold in_payload, in_old, in_new, in_deferred. cbn [full vc_new_payload vc_old_leftovers vc_new_leftovers vc_deferred].
  unfold bytes_bits. rewrite !flat_map_app. reflexivity.
Qed.
Lemma dummy_zero {C : Curve} M (P : Params C) L : leftovers_dummy M P = Some L -> y_new L = fzero /\ s_new_commitment L = c_zero.
Proof.
  unfold leftovers_dummy. destruct (root_challenges _) as [cs|]; [|discriminate]. cbn [obind]. destruct (invert_all cs) as [[u v]|]; [|discriminate]. cbn [obind].
  destruct (compute_g_for_inner_product _ _ _ _); [|discriminate]. cbn [obind]. intro E. injection E as <-. split; reflexivity.
Qed.

Section Main.
  Context {E1 E2 : Curve} {r1 r2 : Z} (H1 : halo_curve E1 r1) (H2 : halo_curve E2 r2) (cy : Cycle E1 E2).
  Variables (P1 : Params E1) (P2 : Params E2) (c : BothCircuits E1 E2) (len : nat) (ok : list bool -> Prop).
  Hypothesis HR : ready cy P1 P2 c len ok.
  Notation circuit1 := (step_circuit cy P2 c).
  Notation circuit2 := (step_circuit (swap cy) P1 (swap_circuits c)).
  Theorem attack_ripe M fuel old payload : machine_ok M -> fuel <= 256 -> can_attack M P1 P2 c len ok old payload ->
    (attack cy M fuel P1 P2 c old payload = Running /\ ((exists t, reached t /\ no_challenge (C := E1) fuel t) \/ exists t, reached t /\ no_challenge (C := E2) fuel t)) \/
    exists p, attack cy M fuel P1 P2 c old payload = Done (Ok p) /\ rp_payload p = payload /\ ripe cy P1 P2 c len ok p.
  Proof.
    intros HM Hf (HO & HL & HAc & HRg). pose proof (rk cy P1 P2 c len ok HR) as (Ek & Hk & Hn1 & Hn2).
    pose proof HR as (_ & [HP1 HA1 HS1 _ HB _] & [HP2 HA2 HS2 _ _ _]).
    destruct (blank1 H2 cy P1 P2 c len ok HR _ HO) as (t1 & T1 & _).
    destruct (blank1 H1 (swap cy) P2 P1 (swap_circuits c) len ok (ready_swap cy P1 P2 c len ok HR) _ HO) as (t2 & T2 & _ & F2).
    destruct (C49_dummy_leftovers E1 r1 H1 M M HM HM P1 (circuit1 old) t1 HP1 Hn1 T1) as (l1 & El1 & Hl1 & _).
    destruct (C49_dummy_leftovers E2 r2 H2 M M HM HM P2 (circuit2 old) t2 HP2 Hn2 T2) as (l2 & El2 & Hl2 & _).
    destruct (C49_dummy_deferred E1 r1 H1 (p_k P1) ltac:(lia)) as (OD & EOD & HOD).
    destruct (dummy_smalls E1 r1 H1 _ OD EOD) as (D1 & D2 & D3). destruct (HRg l1 l2 OD El1 El2 EOD) as (B & HBc). clear HRg.
    destruct (dummy_zero M P2 l2 El2) as (Ey & Es). pose proof (dummy_lefts E2 r2 H2 M P2 l2 El2) as Sm2. pose proof (dummy_lefts E1 r1 H1 M P1 l1 El1) as Sm1.
    destruct (cast_deferred (cyc_base2 cy) OD (p_k P2)) as (Z1 & Z2 & Z3 & Z4 & Z5). cbv zeta in *.
    set (bits := flat_map byte_bits (old ++ leftovers_to_bytes l2 ++ leftovers_to_bytes l1 ++ deferred_to_bytes OD)) in *.
    assert (EI : l_inputs t2 = seq 1 (S (length bits))).
    { apply (blank_inputs E1 r1 H1 (cyc_base2 (swap cy)) P1 (inner_for (swap cy) (on_scalar2 c)) ok old (leftovers_to_bytes l2) l1 OD t2); try assumption.
      - apply (inner2 cy P1 P2 c len ok HR).
      - apply HO.
      - lia.
      - apply (gens1 cy P1 P2 c len ok HR).
      - rewrite (lengths_top E2 r2 H2). destruct Hl2 as (-> & _). lia.
      - apply Hl1. }
    destruct (inputs_gathered E2 r2 H2 P2 bits HP2 HA2) as (K1 & gens & K & G1 & G2 & G3 & G4 & G5).
    { destruct HP2 as (_ & X1 & _ & X2 & _). rewrite X2, <- X1. pose proof (lay_ok_run false _ _ _ _ (ok_layout0 false) T2) as OK. pose proof (lo_range t2 OK) as X. rewrite EI in X.
      rewrite Forall_forall in X. specialize (X (S (length bits)) ltac:(apply in_seq; lia)). lia. }
    destruct (G5 (mkLayout None 0 [] (seq 1 (length (@fone (Scalar E2) :: map of_bit bits))) (@fone (Scalar E2) :: map of_bit bits) [] [] []) eq_refl eq_refl) as (v & HKv & Hkc). cbn [l_inputs l_values] in Hkc.
    assert (Eb : length (@fone (Scalar E2) :: map of_bit bits) = S (length bits)) by (cbn [length]; rewrite map_length; reflexivity). rewrite Eb in Hkc. clear G5.
    remember (attack cy M fuel P1 P2 c old payload) as R eqn:ER. unfold attack in ER. cbv zeta in ER. rewrite El1 in ER. cbn [out_opt out_bind] in ER. rewrite El2 in ER. cbn [out_opt out_bind] in ER. rewrite EOD in ER. cbn [out_opt out_bind] in ER. rewrite G1 in ER. cbn [out_opt out_bind] in ER. rewrite G2 in ER. cbn [out_opt out_bind] in ER.
    change (bytes_bits (old ++ leftovers_to_bytes l2 ++ leftovers_to_bytes l1 ++ deferred_to_bytes OD)) with bits in ER. rewrite G3 in ER. cbn [out_opt out_bind] in ER.
    change (as_circuit (swap cy) (blank_circuit (swap cy) (on_scalar2 c) P1 old)) with (circuit2 old) in ER.
    destruct (fake_halo E2 r2 H2 P2 (circuit2 old) t2 (map of_bit bits) K v l2 M fuel) as [(E & X)|(pf & lft & T & Dp & L' & D & forks & E & EV & Km & PP & V2 & V3 & S1 & S2 & S3 & S4 & S5 & S6 & HCm)]; try assumption; try lia.
    { rewrite EI, seq_length, map_length. lia. } { rewrite EI. exact Hkc. }
    { left. unfold out_try at 1 in ER. rewrite E in ER. cbn [out_bind] in ER. split; [exact ER|right; exact X]. }
    unfold out_try at 1 in ER. rewrite E in ER. cbn [out_bind] in ER. unfold out_try at 1 in ER. rewrite EV in ER. cbn [out_bind] in ER. set (vc := mkVC _ _ _ _ _ _ _ _ _) in ER.
    assert (SH : shaped vc).
    { constructor; cbn [vc vc_proof vc_forkvalues vc_old_leftovers vc_new_leftovers vc_deferred vc_params vc_inner].
      - intros p Ep. injection Ep as <-. unfold as_old_proof. cbn [op_payload op_proof op_oldproof1 op_deferred rp_payload rp_proof rp_oldproof1 rp_deferred]. unfold inner_for. rewrite cast_payload, HB, (proj1 HO), Z3, Z4.
        split; [reflexivity|]. split; [exact PP|]. split; [apply Hl2|]. split; lia.
      - intros fs Ef. injection Ef as <-. lia.
      - intros l El. injection El as <-. rewrite (lengths_top E1 r1 H1). destruct Hl1 as (-> & _). lia.
      - intros l El. injection El as <-. exact S2.
      - intros D0 E0. injection E0 as <-. split; assumption. }
    assert (HC : forall w : assignment (Base E2), w (VA 1) = fone -> complete w (vc_synthesize_with (VA 1) (endo_chain_with (VA 1) (dishonest T Dp)) vc) (fun _ => True)).
    { intros w w1. apply (HCm (VA 1) w w1 vc (cast (P := Deferred) (eq_sym (cyc_base2 cy)) OD) old (leftovers_to_bytes l1) B); try reflexivity.
      - apply (gens2 cy P1 P2 c len ok HR).
      - rewrite Z1. unfold bits in HBc. rewrite !flat_map_app in HBc. exact HBc.
      - exact (G4 B HBc).
      - lia.
      - lia.
      - apply Z5, D3.
      - rewrite Z2, <- Ek. exact HOD.
      - intros ob nb Ho Hn. exact (cast_accepts (cyc_base2 cy) _ _ _ HAc w (VA 1) w1 ob nb Ho Hn). }
    destruct (prove_ripe_with H1 H2 cy P1 P2 c len ok HR M fuel vc l1 L' D payload (dishonest T Dp) HM eq_refl eq_refl eq_refl eq_refl eq_refl eq_refl SH HL Km HC) as [(E' & X)|(pf' & L'' & E' & X)]; try assumption.
    - exact (move1 H1 H2 cy P1 P2 c len ok HR _ _ _ HO HL Hl1).
    - exact (move2 H1 H2 cy P1 P2 c len ok HR _ _ _ HO HL V3).
    - left. match type of ER with context [proof_new M fuel P1 ?Y l1] => change (proof_new M fuel P1 Y l1 = Running) in E' end. unfold out_try in ER. rewrite E' in ER. split; [exact ER|left; exact X].
    - right. exists (mkRP pf' l1 L' D payload). split; [|split; [reflexivity|exact (X Hf)]].
      match type of ER with context [proof_new M fuel P1 ?Y l1] => change (proof_new M fuel P1 Y l1 = Done (Ok (pf', L''))) in E' end. unfold out_try in ER. rewrite E' in ER. exact ER.
  Qed.
End Main.
