(** C75: what a recursive proof does show (compare C73): its last step.  Values of the
    wires that satisfy the recursive circuit's system of constraints, for public inputs
    that begin with the bits of a payload, satisfy the application's circuit for that
    payload and some old payload.  With C72 they are computed from a prover. *)
From Coq Require Import ZArith String List Bool Arith Lia.
From Verif Require Import Model.FieldTrait Model.FieldInst Model.Circuits Model.Boolean Model.Curve Model.Threads Model.Util Model.Params Model.Opening Model.Proofs Model.Recursion Model.RecursiveProof Model.Bitcoin
  Spec.FieldLaws Spec.CircuitSpec Spec.BoolSpec Spec.SystemSpec Spec.CurveSpec Spec.CurveLaws Spec.UtilSpec Spec.ProofSpec Spec.Sha256Spec Spec.BitcoinSpec Spec.RecursionSpec Spec.RecursiveCircuitSpec Spec.UniformSpec Spec.ChainSpec Spec.ExtractSpec Spec.SoundnessSpec Spec.LastStepSpec
  Proofs.FpFq Proofs.CurveInst Proofs.CurveTop Proofs.UtilTop Proofs.ChallengeP Proofs.AlikeRecursionP Proofs.RecursiveSystemP Proofs.ChainP Proofs.VerifierTopP Proofs.LastStepP Proofs.SystemP
  Properties.ProverProps Properties.RecursiveCircuitProps Properties.RecursiveSystemProps Properties.SizeProps Properties.ChainProps Properties.BitcoinProps Properties.SoundnessProps Properties.OpeningProps.
Import ListNotations.
Open Scope nat_scope. Open Scope list_scope.
Local Notation length := List.length.

Lemma cast_holds {C : Curve} {r} (HC : halo_curve C r) {G : Field} (H : Base C = G) (inner : RecursiveCircuit G) (P : Params C) payload t a b c rest :
  laid_out false (cast (P := fun F => Var -> CS F unit) H (fun one => vc_synthesize one (mkVC P None (cast (P := RecursiveCircuit) (eq_sym H) inner) None payload None None None None))) t ->
  gates_satisfied (l_gates t) a b c -> lcs_satisfied (l_lcs t) (l_inputs t) (fone :: map of_bit (flat_map byte_bits payload) ++ rest) a b c ->
  exists old_bits, length old_bits = length (base_payload inner) /\ accepts_step inner old_bits (flat_map byte_bits payload).
Proof.
  destruct H. cbn [cast eq_rect eq_sym]. set (vc := mkVC _ _ _ _ _ _ _ _ _). intros HL HG HI.
  assert (X : forall q vb vs (CL : CurveLaws C q vb r vs), exists ob, length ob = length (w_payload vc) /\ accepts_step (vc_inner vc) ob (in_payload vc)).
  { intros q vb vs CL. exact (inner_holds CL vc t a b c rest HL HG HI). }
  destruct HC; [exact (X _ _ _ Ec0_laws)|exact (X _ _ _ Ec1_laws)].
Qed.

Theorem C75_last_step : forall E1 E2 (cy : Cycle E1 E2), halo_cycle E1 E2 cy -> forall P2 c payload t a b d rest,
  laid_out false (step_circuit cy P2 c payload) t -> gates_satisfied (l_gates t) a b d ->
  lcs_satisfied (l_lcs t) (l_inputs t) (fone :: map of_bit (flat_map byte_bits payload) ++ rest) a b d ->
  exists old_bits, length old_bits = length (base_payload (on_scalar1 c)) /\ accepts_step (on_scalar1 c) old_bits (flat_map byte_bits payload).
Proof.
  intros E1 E2 cy HC P2 c payload t a b d rest. destruct HC.
  - exact (cast_holds halo_ec1 (cyc_base2 cycle01) (on_scalar1 c) P2 payload t a b d rest).
  - exact (cast_holds halo_ec0 (cyc_base2 cycle10) (on_scalar1 c) P2 payload t a b d rest).
Qed.
Print Assumptions C75_last_step.

(** From a prover that convinces a verifier (who compares points exactly, see C72) of a
    payload, for enough challenges, there is computed a relation between the generators,
    or else wires that show such a step. *)
Theorem C75_extract : forall E1 E2 (cy : Cycle E1 E2), halo_cycle E1 E2 cy ->
  exists extract : nat -> (Scalar E1 -> list (Scalar E1)) -> list (Scalar E1) -> stage0 E1 unit (nat -> answers E1) -> found E1,
  forall (P1 : Params E1) (P2 : Params E2) c payload t s_poly k rest K L T,
  good_params P1 -> laid_out false (step_circuit cy P2 c payload) t -> l_gates t <= p_n P1 -> length (l_lcs t) < p_d P1 ->
  (forall y, compute_sx P1 (step_circuit cy P2 c payload) y = Done (Ok (s_poly y))) ->
  (forall q, coeff k q = input_at (l_inputs t) (fone :: map of_bit (flat_map byte_bits payload) ++ rest) q) ->
  commitment_to (p_generators P1) false k K -> enough (p_n P1) (length (l_lcs t)) T ->
  (forall pf y x yn z packed, conversed T pf y x yn z packed -> convinced P1 (step_circuit cy P2 c payload) K k L pf y x yn z packed) ->
  match extract (p_n P1) s_poly k (scalars0 T) with
  | Witness a b d => exists old_bits, length old_bits = length (base_payload (on_scalar1 c)) /\ accepts_step (on_scalar1 c) old_bits (flat_map byte_bits payload)
  | Related z => relation (p_generators P1) z
  end.
Proof.
  assert (X : forall E1 E2 (cy : Cycle E1 E2) r1, halo_curve E1 r1 -> halo_cycle E1 E2 cy ->
    exists extract : nat -> (Scalar E1 -> list (Scalar E1)) -> list (Scalar E1) -> stage0 E1 unit (nat -> answers E1) -> found E1,
    forall (P1 : Params E1) (P2 : Params E2) c payload t s_poly k rest K L T,
    good_params P1 -> laid_out false (step_circuit cy P2 c payload) t -> l_gates t <= p_n P1 -> length (l_lcs t) < p_d P1 ->
    (forall y, compute_sx P1 (step_circuit cy P2 c payload) y = Done (Ok (s_poly y))) ->
    (forall q, coeff k q = input_at (l_inputs t) (fone :: map of_bit (flat_map byte_bits payload) ++ rest) q) ->
    commitment_to (p_generators P1) false k K -> enough (p_n P1) (length (l_lcs t)) T ->
    (forall pf y x yn z packed, conversed T pf y x yn z packed -> convinced P1 (step_circuit cy P2 c payload) K k L pf y x yn z packed) ->
    match extract (p_n P1) s_poly k (scalars0 T) with
    | Witness a b d => exists old_bits, length old_bits = length (base_payload (on_scalar1 c)) /\ accepts_step (on_scalar1 c) old_bits (flat_map byte_bits payload)
    | Related z => relation (p_generators P1) z
    end).
  { intros E1 E2 cy r1 H1 HC. destruct (C72_extract E1 r1 H1) as (extract & HE). exists extract.
    intros P1 P2 c payload t s_poly k rest K L T A1 A2 A3 A4 A5 A6 A7 A8 A9.
    pose proof (HE P1 _ t s_poly k _ K L T A1 A2 A3 A4 A5 A6 A7 A8 A9) as S. destruct (extract _ _ _ _) as [a b d|z]; [|exact S].
    destruct S as (S1 & S2). exact (C75_last_step E1 E2 cy HC P2 c payload t a b d rest A2 S1 S2). }
  intros E1 E2 cy HC. pose proof HC as HC'. destruct HC'; [exact (X _ _ _ _ halo_ec0 HC)|exact (X _ _ _ _ halo_ec1 HC)].
Qed.
Print Assumptions C75_extract.

(** For the Bitcoin example: there is a header before the last one.  Its double hash is
    the last header's previous hash (modulo the field's order), and its height is one
    less.  By C74 nothing more can be concluded: neither its own past, nor the work. *)
Theorem C75_bitcoin : forall E1 E2 (cy : Cycle E1 E2) r1, halo_cycle E1 E2 cy -> halo_curve E1 r1 -> forall P2 payload t a b d rest,
  laid_out false (step_circuit cy P2 bitcoin_circuits payload) t -> gates_satisfied (l_gates t) a b d ->
  lcs_satisfied (l_lcs t) (l_inputs t) (fone :: map of_bit (flat_map byte_bits payload) ++ rest) a b d ->
  let new := flat_map byte_bits payload in
  exists old, length old = 928 /\ 928 <= length new /\ (height_of new = height_of old + 1)%Z /\
    (bits_val (prev_hash_of (header_of new)) mod r1 = bits_val (double_sha256 (header_of old)) mod r1)%Z /\
    negative_target (header_of new) = false.
Proof.
  intros E1 E2 cy r1 HC H1 P2 payload t a b d rest HL HG HI new.
  destruct (C75_last_step E1 E2 cy HC P2 bitcoin_circuits payload t a b d rest HL HG HI) as (old & L0 & w & one & o & n & tr & W1 & HO & HN & HE & HCs). fold new in HN.
  clearbody new. cbn [bitcoin_circuits on_scalar1 bitcoin_circuit inner_synthesize base_payload] in HE, L0. clear HL HG HI.
  exists old. split; [rewrite L0; reflexivity|].
  assert (X : forall v, FieldLaws (Scalar E1) r1 v -> 928 <= length old /\ 928 <= length new /\ exists d, circuit_step r1 old new d).
  { intros v FL. assert (bits : forall l bs, Forall2 (bit_has w) l bs -> Forall2 (bit_is w) l bs) by (induction 1 as [|l' b' bs bs' [X _]]; constructor; assumption).
    exact (C65_bitcoin_sound _ r1 v FL w one W1 o n old new HO (bits _ _ HN) tr tt HE HCs). }
  assert (Y : 928 <= length new /\ exists d, circuit_step r1 old new d) by (destruct H1; [exact (proj2 (X _ Fp_laws))|exact (proj2 (X _ Fq_laws))]).
  destruct Y as (Y1 & s & Y2). split; [exact Y1|]. destruct Y2. auto.
Qed.
Print Assumptions C75_bitcoin.

(** *** The hypotheses are met: by the first step of every application that can start, and
    with C72's honest prover also those of the extraction *)
Lemma cast_first {C : Curve} {r} (HC : halo_curve C r) {G : Field} (H : Base C = G) (inner : RecursiveCircuit G) (vc : VerificationCircuit C) ok lb L D :
  vc_inner vc = cast (P := RecursiveCircuit) (eq_sym H) inner -> vc_old_leftovers vc = Some lb -> vc_new_leftovers vc = Some L -> vc_deferred vc = Some D ->
  shaped vc -> uniform ok (vc_inner vc) -> ok (flat_map byte_bits (vc_new_payload vc)) -> 2 <= p_k (vc_params vc) -> good_generators (vc_params vc) -> starts_well (vc_params vc) ->
  (forall w : assignment (Base C), w (VA 1) = fone -> complete w (vc_synthesize (VA 1) vc) (fun _ => True)) ->
  exists t a b d rest, laid_out false (cast (P := fun F => Var -> CS F unit) H (fun one => vc_synthesize one (mkVC (vc_params vc) None (cast (P := RecursiveCircuit) (eq_sym H) inner) None (vc_new_payload vc) None None None None))) t /\
    length a = l_gates t /\ length b = l_gates t /\ length d = l_gates t /\
    gates_satisfied (l_gates t) a b d /\ lcs_satisfied (l_lcs t) (l_inputs t) (fone :: map of_bit (flat_map byte_bits (vc_new_payload vc)) ++ rest) a b d.
Proof.
  intros EI E1 E2 E3 SH HU HOk Hk HG HS HCm.
  destruct (cast_prover HC H vc ok lb L D [] E1 E2 E3 SH HU HOk Hk HG HS (Forall_nil _) HCm) as (s & S1 & (S2 & S3) & _ & (t & T1 & (T2 & T3 & T4)) & V & _).
  rewrite EI in T1. exists t, (l_a s), (l_b s), (l_c s).
  assert (O : SystemP.lay_ok s).
  { exact (SystemP.lay_ok_run true _ _ _ _ (SystemP.ok_layout0 true) S1). }
  destruct O as [O1 O2 O3 _ _ _ _ _]. rewrite <- T2, <- T3, <- T4.
  exists (map of_bit (flat_map byte_bits (lb ++ leftovers_to_bytes L ++ deferred_to_bytes D))). split; [exact T1|]. do 4 (split; [assumption|]).
  rewrite V in S3. unfold public_bits in S3. rewrite <- map_app, <- flat_map_app. exact S3.
Qed.
Lemma first_satisfied : forall E1 E2 (cy : Cycle E1 E2), halo_cycle E1 E2 cy -> forall P1 P2 c len ok M payload,
  ready cy P1 P2 c len ok -> machine_ok M -> can_start M P1 P2 c len ok payload ->
  exists t a b d rest, laid_out false (step_circuit cy P2 c payload) t /\ length a = l_gates t /\ length b = l_gates t /\ length d = l_gates t /\
    gates_satisfied (l_gates t) a b d /\ lcs_satisfied (l_lcs t) (l_inputs t) (fone :: map of_bit (flat_map byte_bits payload) ++ rest) a b d.
Proof.
  assert (X : forall E1 E2 (cy : Cycle E1 E2) r1 r2, halo_curve E1 r1 -> halo_curve E2 r2 -> forall P1 P2 c len ok M payload,
    ready cy P1 P2 c len ok -> machine_ok M -> can_start M P1 P2 c len ok payload ->
    exists t a b d rest, laid_out false (step_circuit cy P2 c payload) t /\ length a = l_gates t /\ length b = l_gates t /\ length d = l_gates t /\
      gates_satisfied (l_gates t) a b d /\ lcs_satisfied (l_lcs t) (l_inputs t) (fone :: map of_bit (flat_map byte_bits payload) ++ rest) a b d).
  { intros E1 E2 cy r1 r2 H1 H2 P1 P2 c len ok M payload HR HM (HL & HAc & HRg).
    pose proof (rk cy P1 P2 c len ok HR) as (Ek & Hk & Hn1 & Hn2). pose proof HR as (_ & [HP1 _ _ _ HB _] & [HP2 _ HS _ _ _]).
    destruct (blank1 H2 cy P1 P2 c len ok HR _ HL) as (t1 & T1 & _). destruct (blank2 H1 cy P1 P2 c len ok HR _ HL) as (t2 & T2).
    destruct (C49_dummy_leftovers E1 r1 H1 M M HM HM P1 _ t1 HP1 Hn1 T1) as (l2 & El2 & Hl2 & _).
    destruct (C49_dummy_leftovers E2 r2 H2 M M HM HM P2 _ t2 HP2 Hn2 T2) as (l1 & El1 & Hl1 & _).
    destruct (C49_dummy_deferred E2 r2 H2 (p_k P2) (proj1 Hk)) as (D & ED & HD).
    destruct (dummy_exists E2 r2 H2 (p_k P2) (proj1 Hk)) as (OD & EOD).
    destruct (dummy_smalls E2 r2 H2 _ D ED) as (D1 & D2 & D3). destruct (HRg l2 OD El2 EOD) as (B & HBc).
    set (vc := mkVC P2 (Some true) (inner_for cy (on_scalar1 c)) None payload (Some (repeat 0 (p_k P2))) (Some (leftovers_to_bytes l2)) (Some l1)
      (Some (cast (P := Deferred) eq_refl D))).
    assert (SH : shaped vc).
    { constructor; cbn [vc vc_proof vc_forkvalues vc_old_leftovers vc_new_leftovers vc_deferred vc_params].
      - discriminate.
      - intros fs E. injection E as <-. rewrite repeat_length. lia.
      - intros l E. injection E as <-. rewrite (lengths_top E1 r1 H1). destruct Hl2 as (-> & _). lia.
      - intros l E. injection E as <-. apply Hl1.
      - intros D0 E. injection E as <-. split; assumption. }
    assert (HCm : forall w : assignment (Base E2), w (VA 1) = fone -> complete w (vc_synthesize (VA 1) vc) (fun _ => True)).
    { intros w w1. eapply (C58_base E2 r2 H2 (VA 1) w w1 vc (leftovers_to_bytes l2) l1 D (repeat 0 (p_k P2)) OD B); try reflexivity; cbn [vc vc_params vc_inner vc_new_payload]; try assumption.
      - apply (gens2 cy P1 P2 c len ok HR).
      - lia.
      - unfold inner_for. rewrite cast_payload. exact HBc.
      - apply repeat_length.
      - apply Forall_forall. intros x Hx. apply repeat_spec in Hx. lia.
      - apply Hl1.
      - intros ob nb Ho Hn. unfold inner_for in *. rewrite cast_payload in Ho. exact (cast_accepts (cyc_base2 cy) _ _ _ HAc w (VA 1) w1 ob nb Ho Hn). }
    exact (cast_first H2 (cyc_base2 cy) (on_scalar1 c) vc ok (leftovers_to_bytes l2) l1 D eq_refl eq_refl eq_refl eq_refl SH (inner1 cy P1 P2 c len ok HR) (proj2 HL) (proj1 Hk) (gens2 cy P1 P2 c len ok HR) HS HCm). }
  intros E1 E2 cy [|]; [exact (X _ _ _ _ _ halo_ec0 halo_ec1)|exact (X _ _ _ _ _ halo_ec1 halo_ec0)].
Qed.
(** C61's application: the hypotheses of both theorems *)
Example C75_nonvacuous : exists (P1 : Params Ec0) (P2 : Params Ec1) t a b d rest s_poly k K L T,
  good_params P1 /\ laid_out false (step_circuit cycle01 P2 keep_both keep_bytes) t /\ l_gates t <= p_n P1 /\ length (l_lcs t) < p_d P1 /\
  gates_satisfied (l_gates t) a b d /\ lcs_satisfied (l_lcs t) (l_inputs t) (fone :: map of_bit (flat_map byte_bits keep_bytes) ++ rest) a b d /\
  (forall y, compute_sx P1 (step_circuit cycle01 P2 keep_both keep_bytes) y = Done (Ok (s_poly y))) /\
  (forall q, coeff k q = input_at (l_inputs t) (fone :: map of_bit (flat_map byte_bits keep_bytes) ++ rest) q) /\
  commitment_to (p_generators P1) false k K /\ enough (p_n P1) (length (l_lcs t)) T /\
  (exists pf y x yn z packed, conversed T pf y x yn z packed) /\
  (forall pf y x yn z packed, conversed T pf y x yn z packed -> convinced P1 (step_circuit cycle01 P2 keep_both keep_bytes) K k L pf y x yn z packed).
Proof.
  destruct C61_nonvacuous as (P1 & P2 & HR & HS & _). cbv zeta in *. exists P1, P2. pose proof HR as (_ & [HP1 _ _ _ _ _] & _).
  destruct (first_satisfied Ec0 Ec1 cycle01 halo_01 P1 P2 keep_both 4 any_bits machine3 keep_bytes HR machine3_top (HS machine3 machine3_top)) as (t & a & b & d & rest & T1 & A1 & A2 & A3 & A4 & A5).
  destruct (blank1 halo_ec1 cycle01 P1 P2 keep_both 4 any_bits HR keep_bytes (conj eq_refl I)) as (t' & T1' & G1 & G2).
  assert (E : t' = t) by (unfold laid_out in T1, T1'; congruence). subst t'.
  exists t, a, b, d, rest.
  destruct (C72_nonvacuous Ec0 _ halo_ec0 P1 _ t _ a b d HP1 T1 ltac:(lia) G2 A1 A2 A3 A4 A5) as (s_poly & k & K & L & T & B1 & B2 & B3 & _ & B4 & B5 & B6).
  exists s_poly, k, K, L, T. repeat (split; [first [assumption|lia]|]). exact B6.
Qed.
