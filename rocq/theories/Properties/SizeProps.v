(** C62: the size of the recursive circuit (src/recursion.rs).  However long the chain,
    the circuit has a number of gates and constraints that is linear in the logarithm k
    of the size of the parameters, so that from k = 22 (the size that the examples use)
    the circuit that verifies a proof fits in a proof of the same size.
    [adds_at_most], [inner_adds_at_most] are in Spec/SizeSpec.v; [laid_out] in
    Spec/SystemSpec.v. *)
From Coq Require Import ZArith String List Bool Arith Lia.
From Verif Require Import Lib.AbGroup Model.FieldTrait Model.FieldInst Model.Circuits Model.Num Model.Boolean Model.Curve Model.Threads Model.Util Model.Params
  Model.Opening Model.Proofs Model.Recursion
  Spec.FieldLaws Spec.CircuitSpec Spec.BoolSpec Spec.SystemSpec Spec.CurveSpec Spec.CurveLaws Spec.UtilSpec Spec.ProofSpec Spec.RecursiveCircuitSpec Spec.UniformSpec Spec.SizeSpec
  Proofs.FpFq Proofs.CurveInst Proofs.UnpackP Proofs.ProverTop Proofs.RecursionGlue Proofs.CostP Proofs.CostRecursionP Proofs.WideGensP
  Properties.RecursiveCircuitProps Properties.RecursiveSystemProps.
Import ListNotations.
Open Scope Z_scope. Open Scope list_scope.
Local Notation length := List.length.

(** The verifier's circuit, without values *)
Definition blank {C : Curve} (P : Params C) (inner : RecursiveCircuit (Base C)) (payload : list Z) : VerificationCircuit C :=
  mkVC P None inner None payload None None None None.

Lemma blank_size {C : Curve} {q vb r vs} (CL : CurveLaws C q vb r vs) (P : Params C) inner payload w l :
  inner_adds_at_most inner (8 * length payload) w l ->
  forall ran t, laid_out ran (fun one => vc_synthesize one (blank P inner payload)) t ->
  2 * Z.of_nat (l_gates t) <= 461143 + 38922 * Z.of_nat (p_k P) + 24 * Z.of_nat (length payload) + 18 * Z.of_nat (length (base_payload inner)) + w /\
  Z.of_nat (length (l_lcs t)) <= 472684 + 39387 * Z.of_nat (p_k P) + 32 * Z.of_nat (length payload) + 19 * Z.of_nat (length (base_payload inner)) + l.
Proof.
  intros HI ran t H. assert (EL : length (bytes_bits payload) = (8 * length payload)%nat) by apply bytes_bits_length.
  assert (X : adds_at_most (vc_synthesize (VA 1) (blank P inner payload))
     (461141 + 38922 * Z.of_nat (p_k P) + 3 * Z.of_nat (length (bytes_bits payload)) + 18 * Z.of_nat (length (base_payload inner)) + w)
     (472683 + 39387 * Z.of_nat (p_k P) + 4 * Z.of_nat (length (bytes_bits payload)) + 19 * Z.of_nat (length (base_payload inner)) + l)).
  { apply uses_adds. apply U_blank.
    - intro x. apply (fe_bits_val (cl_base _ _ _ _ _ CL)).
    - intro x. apply (fe_bits_val (cl_scalar _ _ _ _ _ CL)).
    - rewrite EL. exact HI. }
  specialize (X ran _ _ _ H). rewrite EL in X. unfold taken, lines in X. cbn [layout0 l_gates l_half l_lcs length] in X. destruct (l_half t); lia.
Qed.

(** The verifier's circuit: half the wires are gates. *)
Theorem C62_blank : forall C r, halo_curve C r -> forall (P : Params C) inner payload w l,
  inner_adds_at_most inner (8 * length payload) w l ->
  forall ran t, laid_out ran (fun one => vc_synthesize one (blank P inner payload)) t ->
  2 * Z.of_nat (l_gates t) <= 461143 + 38922 * Z.of_nat (p_k P) + 24 * Z.of_nat (length payload) + 18 * Z.of_nat (length (base_payload inner)) + w /\
  Z.of_nat (length (l_lcs t)) <= 472684 + 39387 * Z.of_nat (p_k P) + 32 * Z.of_nat (length payload) + 19 * Z.of_nat (length (base_payload inner)) + l.
Proof. intros C r HC. destruct HC; [exact (blank_size Ec0_laws)|exact (blank_size Ec1_laws)]. Qed.
(** The prover's circuit has the same size. *)
Theorem C62_size : forall C r, halo_curve C r -> forall (self : VerificationCircuit C) ok w l,
  inner_adds_at_most (vc_inner self) (8 * length (vc_new_payload self)) w l -> shaped self -> uniform ok (vc_inner self) -> ok (flat_map byte_bits (vc_new_payload self)) ->
  (2 <= p_k (vc_params self))%nat -> good_generators (vc_params self) -> starts_well (vc_params self) ->
  forall ran s, laid_out ran (fun one => vc_synthesize one self) s ->
  2 * Z.of_nat (l_gates s) <= 461143 + 38922 * Z.of_nat (p_k (vc_params self)) + 24 * Z.of_nat (length (vc_new_payload self)) + 18 * Z.of_nat (length (base_payload (vc_inner self))) + w /\
  Z.of_nat (length (l_lcs s)) <= 472684 + 39387 * Z.of_nat (p_k (vc_params self)) + 32 * Z.of_nat (length (vc_new_payload self)) + 19 * Z.of_nat (length (base_payload (vc_inner self))) + l.
Proof.
  intros C r HC self ok w l HI SH HU HOk Hk HG HS ran s H.
  destruct (C60_same_system C r HC self (blank (vc_params self) (vc_inner self) (vc_new_payload self)) ok eq_refl eq_refl eq_refl SH ltac:(constructor; discriminate) HU HOk Hk HG HS ran s H)
    as (t & HT & E1 & E2 & _).
  rewrite E1, E2. exact (C62_blank C r HC _ _ _ w l HI false t HT).
Qed.

Lemma grows k : (22 <= k)%nat -> 461143 + 38922 * Z.of_nat k + 700000 < 2 ^ (Z.of_nat k - 1) /\ 472684 + 39387 * Z.of_nat k + 2000000 < 2 ^ Z.of_nat k.
Proof.
  intro H. induction H as [|k H (IH1 & IH2)]; [split; reflexivity|]. rewrite Nat2Z.inj_succ, Z.pow_succ_r by lia.
  replace (Z.succ (Z.of_nat k) - 1) with (Z.succ (Z.of_nat k - 1)) by lia. rewrite Z.pow_succ_r by lia. lia.
Qed.
(** Parameters of size k >= 22 (n = 2^(k-2) gates, d = 2^k constraints) have room for
    the circuit that verifies proofs of the same size k and for an application circuit
    and payloads of up to 700000 wires and 2000000 constraints. *)
Theorem C62_fits : forall C r, halo_curve C r -> forall (P : Params C) inner payload w l n d,
  inner_adds_at_most inner (8 * length payload) w l ->
  24 * Z.of_nat (length payload) + 18 * Z.of_nat (length (base_payload inner)) + w <= 700000 ->
  32 * Z.of_nat (length payload) + 19 * Z.of_nat (length (base_payload inner)) + l <= 2000000 ->
  (22 <= p_k P)%nat -> (4 * n = 2 ^ p_k P)%nat -> d = (2 ^ p_k P)%nat ->
  forall ran t, laid_out ran (fun one => vc_synthesize one (blank P inner payload)) t -> (l_gates t < n)%nat /\ (length (l_lcs t) < d)%nat.
Proof.
  intros C r HC P inner payload w l n d HI HW HL Hk Hn Hd ran t H. destruct (C62_blank C r HC P inner payload w l HI ran t H) as (H1 & H2).
  destruct (grows _ Hk) as (G1 & G2).
  assert (En : 4 * Z.of_nat n = 2 ^ Z.of_nat (p_k P)). { transitivity (Z.of_nat (4 * n)); [lia|]. rewrite Hn, Nat2Z.inj_pow. reflexivity. }
  assert (Ed : Z.of_nat d = 2 ^ Z.of_nat (p_k P)). { rewrite Hd, Nat2Z.inj_pow. reflexivity. }
  assert (E2 : 2 ^ Z.of_nat (p_k P) = 2 * 2 ^ (Z.of_nat (p_k P) - 1)). { rewrite <- Z.pow_succ_r by lia. f_equal. lia. }
  lia.
Qed.

(** *** The application of C60 with payloads of [len] bytes *)
Lemma same_bits_cost {F : Field} (old : list AllocatedBit) : forall new, uses (F := F) (same_bits old new) (upto 0 (Z.of_nat (length old))).
Proof.
  induction old as [|o old IH]; intros [|n new]; cbn [same_bits length]; try (apply uses_ret; unfold upto; lia).
  apply uses_lcb. eapply uses_weaken; [apply IH|]. unfold upto. intros. lia.
Qed.
Lemma keep_cost {F : Field} payload len : inner_adds_at_most (F := F) (keep payload) len 0 (Z.of_nat (length payload) + 1).
Proof.
  intros one old new EO EN. apply uses_adds. cbn [keep inner_synthesize base_payload] in *. eapply uses_bind; [apply same_bits_cost|]. cbv beta. intros _ w l (H1 & H2). rewrite EO in H2.
  destruct new; [apply uses_ret|apply uses_lc]; unfold upto; lia.
Qed.
(** Its first proof, with parameters for which no addition of the input commitment is
    exceptional: the prover's circuit is laid out and satisfied, the verifier's is laid
    out as the same system, for any payload of this length, and both fit from k = 22 on. *)
Section KeepFits.
  Context {C : Curve} {q vb r vs} (CL : CurveLaws C q vb r vs) (HC : halo_curve C r).
  Variables (D : Deferred (Scalar C)) (OD : Deferred (Base C)) (P : Params C).
  Hypothesis (ED : deferred_dummy (p_k P) = Some D) (EOD : deferred_dummy (p_k P) = Some OD).
  Hypothesis (Hk : (22 <= p_k P)%nat) (HP : good_params P).
  Hypothesis HGE : Forall2 (fun G xy => represents G (Some xy)) (p_generators P) (p_generators_xy P).
  Hypothesis HB : forall bits, exists B, bits_commitment P bits B.
  Definition keep_bytes : list Z := [255; 0; 7; 255].
  Definition keep_first : VerificationCircuit C :=
    mkVC P (Some true) (keep (flat_map byte_bits keep_bytes)) None keep_bytes (Some (repeat 0%nat (p_k P))) (Some (repeat 17 (144 + 16 * p_k P)))
      (Some (mkLeft (c_zero : C) fzero c_zero (repeat fzero (p_k P)))) (Some D).
  Lemma keep_fits : good_generators P /\ starts_well P /\ shaped keep_first /\ exists s, laid_out true (fun one => vc_synthesize one keep_first) s /\ satisfied s /\
    forall payload, length payload = 4%nat -> exists t, laid_out false (fun one => vc_synthesize one (blank P (vc_inner keep_first) payload)) t /\ same_system s t /\
    (l_gates t < p_n P)%nat /\ (length (l_lcs t) < p_d P)%nat.
  Proof.
    destruct (dummy_small (cl_scalar _ _ _ _ _ CL) (p_k P) D ED) as (D1 & D2 & D3).
    assert (HG : good_generators P) by (exists (p_generators P); exact HGE).
    destruct (HB [true]) as (B1 & HB1).
    assert (HS : starts_well P) by exact (bits_commitment_starts CL P true [] _ HB1).
    assert (HU : uniform any_bits (vc_inner keep_first)) by apply keep_uniform.
    assert (SH : shaped keep_first).
    { constructor; cbn [keep_first vc_proof vc_forkvalues vc_old_leftovers vc_new_leftovers vc_deferred vc_params].
      - discriminate.
      - intros fs E. assert (E' : fs = repeat 0%nat (p_k P)) by congruence. rewrite E', repeat_length. apply le_n.
      - intros l E. assert (E' : l = repeat 17 (144 + 16 * p_k P)) by congruence. rewrite E', repeat_length. reflexivity.
      - intros l E. injection E as <-. apply repeat_length.
      - intros D0 E. injection E as <-. split; assumption. }
    split; [exact HG|]. split; [exact HS|]. split; [exact SH|].
    assert (Hk2 : (2 <= p_k (vc_params keep_first))%nat) by (cbn [keep_first vc_params]; lia).
    destruct (HB (base_payload (vc_inner keep_first) ++ repeat false (8 * (144 + 16 * p_k P)) ++
         flat_map byte_bits (repeat 17 (144 + 16 * p_k P)) ++ flat_map byte_bits (deferred_to_bytes OD))) as (B & HBB).
    destruct (C60_satisfied C _ HC keep_first any_bits SH HU I Hk2 HG HS) as (s & H1 & H2).
    { intros w w1. eapply (C58_base C _ HC (VA 1) w w1 keep_first (repeat 17 (144 + 16 * p_k P)) _ D (repeat 0%nat (p_k P)) OD); try reflexivity; cbn [keep_first vc_params]; try assumption; try reflexivity.
      - pose proof (proj1 HP). lia.
      - exact HBB.
      - apply repeat_length.
      - apply Forall_forall. intros x Hx. apply repeat_spec in Hx. lia.
      - apply repeat_length.
      - intros ob nb Ho Hn. exact (keep_complete CL _ w (VA 1) w1 _ ob nb Ho Hn). }
    exists s. split; [exact H1|]. split; [exact H2|]. intros payload EL.
    assert (SB : shaped (blank P (vc_inner keep_first) payload)) by (constructor; discriminate).
    destruct (C60_same_system C _ HC keep_first (blank P (vc_inner keep_first) payload) any_bits eq_refl eq_refl (eq_sym EL) SH SB HU I Hk2 HG HS true s H1) as (t & H3 & H4).
    exists t. split; [exact H3|]. split; [exact H4|]. destruct HP as (_ & Hd & Hn & _).
    refine (C62_fits C _ HC P _ _ 0 33 (p_n P) (p_d P) (keep_cost (flat_map byte_bits keep_bytes) _) _ _ Hk Hn Hd false t H3).
    - rewrite EL. cbn. lia.
    - rewrite EL. cbn. lia.
  Qed.
End KeepFits.
Example C62_nonvacuous : exists (P : Params Ec0) (self : VerificationCircuit Ec0) s t, vc_base_case self = Some true /\ vc_params self = P /\ p_k P = 22%nat /\
  good_params P /\ shaped self /\ uniform any_bits (vc_inner self) /\ good_generators P /\ starts_well P /\
  inner_adds_at_most (vc_inner self) (8 * length (vc_new_payload self)) 0 33 /\
  laid_out true (fun one => vc_synthesize one self) s /\ satisfied s /\
  laid_out false (fun one => vc_synthesize one (blank P (vc_inner self) (vc_new_payload self))) t /\ same_system s t /\
  (l_gates t < p_n P)%nat /\ (length (l_lcs t) < p_d P)%nat.
Proof.
  destruct (wide_params_exist Ec0_laws 22 ltac:(lia)) as (P & Pk & HP & HGE & HB).
  destruct (deferred_dummy_top Ec0_laws 22 magic_fp ltac:(lia)) as (D & ED & _).
  destruct (deferred_dummy_top Ec1_laws 22 magic_fq ltac:(lia)) as (OD & EOD & _).
  rewrite <- Pk in ED, EOD. assert (Hk : (22 <= p_k P)%nat) by (rewrite Pk; exact (le_n 22)).
  destruct (keep_fits Ec0_laws halo_ec0 D OD P ED EOD Hk HP HGE HB) as (HG & HS & SH & s & H1 & H2 & H3).
  destruct (H3 keep_bytes eq_refl) as (t & H4 & H5 & H6 & H7).
  exists P, (keep_first D P), s, t. split; [reflexivity|]. split; [reflexivity|]. split; [exact Pk|]. split; [exact HP|]. split; [exact SH|]. split; [apply keep_uniform|].
  split; [exact HG|]. split; [exact HS|]. split; [exact (keep_cost (flat_map byte_bits keep_bytes) _)|]. repeat (split; [assumption|]). exact H7.
Qed.

Print Assumptions C62_blank.
Print Assumptions C62_size.
Print Assumptions C62_fits.
