(** C56: what [MultiPolynomialOpening::verify_proof] and [Proof::verify] check,
    for arbitrary proofs. *)
From Coq Require Import ZArith List Bool Arith Lia Ring_theory.
From Verif Require Import Model.FieldTrait Model.FieldInst Model.Circuits Model.Curve Model.Threads Model.Util Model.Rescue Model.Params Model.Opening Model.Proofs
  Spec.FieldSpec Spec.FieldLaws Spec.CircuitSpec Spec.CurveSpec Spec.CurveLaws Spec.UtilSpec Spec.SystemSpec Spec.ProofSpec Spec.VerifySpec
  Proofs.FieldGen Proofs.FpFq Proofs.CurveInst Proofs.CurveTop Proofs.ParamsP Proofs.ParamsTop Proofs.OpeningP Proofs.OpeningTop Proofs.ProverLemmas Proofs.ProverTop Proofs.DeferredTop Proofs.ExampleP
  Proofs.VerifyP Proofs.VerifyTop Properties.ProverProps Properties.ForgeryProps.
Import ListNotations.
Open Scope nat_scope.
Open Scope list_scope.

(** The inner product argument: the challenges are those of the transcript of
    all messages, and the result says whether every claim passes. *)
Theorem C56_opening_exact : forall C r, halo_curve C r -> forall (pf : MultiPolynomialOpening C) t claims k,
  well_formed (length claims) k pf -> reached t -> Forall (fun i => valid (po_commitment i)) claims ->
  (verify_proof pf t claims k = Panicked /\ exists t, reached t /\ no_challenge (C := C) 256 t) \/
  exists b packed forks t', verify_proof pf t claims k = Done (b, packed, mo_g pf, forks, t') /\
    rounds_run (length claims) t (mo_rounds pf) packed forks t' /\
    (b = true <-> forall j claim a, nth_error claims j = Some claim -> nth_error (mo_a pf) j = Some a ->
       claim_passes (mo_g pf) (mo_rounds pf) packed j claim a).
Proof.
  intros C r [|] pf t claims k HW HT HV.
  - destruct (verify_spec Ec0_laws pf t claims k HW (reached_live (cl_base _ _ _ _ _ Ec0_laws) t HT) HV) as [H|(b & packed & forks & t' & cs & cis & E & _ & _ & _ & R & HB & _)]; [left; exact H|right].
    exists b, packed, forks, t'. split; [exact E|]. split; [exact R|exact HB].
  - destruct (verify_spec Ec1_laws pf t claims k HW (reached_live (cl_base _ _ _ _ _ Ec1_laws) t HT) HV) as [H|(b & packed & forks & t' & cs & cis & E & _ & _ & _ & R & HB & _)]; [left; exact H|right].
    exists b, packed, forks, t'. split; [exact E|]. split; [exact R|exact HB].
Qed.
(** The proof system. *)
Theorem C56_verify_exact : forall C r, halo_curve C r -> forall M, machine_ok M -> forall (P : Params C) circuit t inputs pf L K,
  good_params P -> laid_out false circuit t -> length inputs = length (l_inputs t) - 1 -> length (l_lcs t) < p_d P ->
  well_formed_proof (p_k P) pf L -> match K with Some K => valid K | None => True end ->
  exists k, (forall i, coeff k i = input_at (l_inputs t) (fone :: inputs) i) /\
  ((proof_verify M pf L P circuit inputs K = Panicked /\ exists tr, reached tr /\ no_challenge (C := C) 256 tr) \/
   exists K' b L' D forks, proof_verify M pf L P circuit inputs K = Done (Ok (b, L', D, forks)) /\
     match K with Some K => K' = K | None => commitment_to (p_generators P) false k K' end /\
     verified K' k pf L b L' D forks).
Proof.
  intros C r [|] M HM P circuit t inputs pf L K HP HT Hin HQ HW VK.
  - destruct (good_reps Ec0_laws P HP) as (gs & HG). destruct (proof_verify_spec Ec0_laws P gs HP HG M circuit t inputs pf L K HM HT Hin HQ HW VK) as (k & Hk & [H|(K' & b & L' & D & forks & H1 & H2 & H3 & _)]);
    (exists k; split; [exact Hk|]); [left; exact H|right]. exists K', b, L', D, forks. split; [exact H1|]. split; [exact H2|exact H3].
  - destruct (good_reps Ec1_laws P HP) as (gs & HG). destruct (proof_verify_spec Ec1_laws P gs HP HG M circuit t inputs pf L K HM HT Hin HQ HW VK) as (k & Hk & [H|(K' & b & L' & D & forks & H1 & H2 & H3 & _)]);
    (exists k; split; [exact Hk|]); [left; exact H|right]. exists K', b, L', D, forks. split; [exact H1|]. split; [exact H2|exact H3].
Qed.
(** Acceptance of an opening does not show that the committed polynomial has that
    value: the commitment to the zero polynomial opens to every value [v] at every
    [x] (unless the fold of the powers of [x] happens to be 0), with an argument
    that needs no search and any final generator, for instance the honest one. *)
Theorem C56_zero_opens_refuted : forall C r, halo_curve C r -> forall k t (x v : Scalar C), 1 <= k -> reached t ->
  (exists tr, reached tr /\ no_challenge (C := C) 256 tr) \/
  exists packed b, length packed = k /\ powers_fold_to packed x b /\
    (b <> fzero -> forall g : C, valid g -> exists pf forks t', verify_proof pf t [mkOpening c_zero v x false] k = Done (true, packed, g, forks, t')).
Proof.
  assert (X : forall C q vb r vs (CL : CurveLaws C q vb r vs) k t (x v : Scalar C), 1 <= k -> reached t ->
    (exists tr, reached tr /\ no_challenge (C := C) 256 tr) \/
    exists packed b, length packed = k /\ powers_fold_to packed x b /\
      (b <> fzero -> forall g : C, valid g -> exists pf forks t', verify_proof pf t [mkOpening c_zero v x false] k = Done (true, packed, g, forks, t'))).
  { intros C q vb r vs CL k t x v Hk Ht.
    destruct (identity_opens CL k t x v Hk (reached_live (cl_base _ _ _ _ _ CL) t Ht)) as [H|(packed & b & H1 & H2 & _ & H4)]; [left; exact H|right].
    exists packed, b. split; [exact H1|]. split; [exact H2|]. intros Hb g Vg. destruct (valid_ex CL g Vg) as (gg & Hg).
    destruct (finvert_some (cl_scalar _ _ _ _ _ CL) b Hb) as (bi & _ & Hbi).
    destruct (H4 (fmul v bi) g gg Hg) as (forks & t' & E); [|eexists; exists forks, t'; exact E].
    pose proof (fl_ops _ _ _ (cl_scalar _ _ _ _ _ CL)) as SO. pose proof (fring SO) as RT. rewrite <- (Rmul_assoc RT), (Rmul_comm RT bi b), Hbi, (Rmul_comm RT). symmetry. apply (Rmul_1_l RT). }
  intros C r [|] k t x v; [exact (X _ _ _ _ _ Ec0_laws k t x v)|exact (X _ _ _ _ _ Ec1_laws k t x v)].
Qed.

(** *** The hypotheses are met: [MultiPolynomialOpening::dummy] in a proof of
    base points, parameters of any size, a circuit of a square *)
Example dummy_well_formed : forall k, 3 < k <= 30 -> exists (P : Params Ec0) (pf : Proof_ Ec0) (L : Leftovers Ec0) (t : layout Fp), p_k P = k /\ good_params P /\
  laid_out false (square_circuit (Err AssignmentMissing)) t /\ length [f_from_u64 25 : Fp] = length (l_inputs t) - 1 /\ length (l_lcs t) < p_d P /\
  well_formed_proof (p_k P) pf L /\ reached (rescue_new (F := Base Ec0)).
Proof.
  intros k Hk. destruct (square_can_prove k fone Hk) as (P & E & HP & HC & L & _ & HL). destruct HC as (_ & _ & (t & HT & HS1 & HS2 & HS3) & _ & _ & HQ).
  assert (V1 : valid (c_one : Ec0)) by exact (proj1 (proj2 (valid_top Ec0_laws))).
  exists P, (mkProof c_one c_one c_one c_one c_one c_one fone fone fone fone fone fone fone (multi_dummy P)), L, t.
  split; [exact E|]. split; [exact HP|]. split; [exact HT|]. split; [exact (f_equal (fun l => length l - 1) HS3)|]. split; [exact (eq_ind _ (fun l => length l < p_d P) HQ _ HS2)|].
  split; [|constructor]. destruct (good_reps Ec0_laws P HP) as (gs & HG).
  apply (honest_iff Ec0_laws P HP gs HG) in HL. destruct HL as (cs & cis & sx & H1 & H2 & H3 & H4 & _ & H6).
  split; [repeat constructor; first [exact V1 | eexists; exact (proj2 H6) | eexists; exact H4]|]. split.
  - cbn [pf_inner_product]. unfold well_formed, multi_dummy. cbn [mo_rounds mo_a mo_g]. rewrite repeat_length. split; [lia|]. split; [reflexivity|]. split; [cbn [repeat length]; lia|].
    split; [exact V1|]. apply Forall_forall. intros rd H. apply repeat_spec in H. subst rd. cbn [round_dummy ip_L ip_R ip_l ip_r repeat length]. do 4 (split; [lia|]).
    split; repeat constructor; exact V1.
  - split; [intro X; rewrite X in H3; cbn [length] in H3; lia|]. clear - H1. unfold rooted in H1. induction H1; constructor; [congruence|assumption].
Qed.

Print Assumptions C56_opening_exact.
Print Assumptions C56_verify_exact.
Print Assumptions C56_zero_opens_refuted.
