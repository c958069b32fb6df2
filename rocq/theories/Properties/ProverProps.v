(** C48, C49, C54: the proof system of src/proofs.rs is complete, its dummy values
    verify, and what [Leftovers::verify] and [Deferred::verify] check.
    [good_params], [honest_leftovers], [can_prove], [commits_to_inputs],
    [proofs_in_a_row], [powers_fold_to] and [deferred_equation] are in
    Spec/ProofSpec.v.  [Running] means that one of the prover's searches for a
    challenge with a square root used up [fuel] attempts. *)
From Coq Require Import ZArith List Bool Arith Lia.
From Verif Require Import Model.FieldTrait Model.FieldInst Model.Circuits Model.Curve Model.Threads Model.Util Model.Rescue Model.Params Model.Opening Model.Proofs
  Spec.FieldSpec Spec.FieldLaws Spec.CircuitSpec Spec.CurveSpec Spec.CurveLaws Spec.UtilSpec Spec.SystemSpec Spec.ProofSpec
  Proofs.FpFq Proofs.CurveInst Proofs.CurveTop Proofs.UtilTop Proofs.ExampleP Proofs.ParamsP Proofs.ParamsTop Proofs.ProverTop Proofs.DeferredTop.
Import ListNotations.
Open Scope nat_scope. Open Scope list_scope.
Notation represents := CurveSpec.represents.

(** C48: with a satisfying witness and honest old leftovers [Proof::new] returns
    a proof and honest new leftovers, and [Proof::verify] accepts the proof with
    the same leftovers, given the public inputs (and nothing, or any commitment
    to them), and the deferred value verifies.  Otherwise a search for a
    challenge did not end. *)
Theorem C48_complete : forall C r, halo_curve C r -> forall M M', machine_ok M -> machine_ok M' ->
  forall fuel (P : Params C) prover verifier s L, good_params P -> can_prove P prover verifier s -> honest_leftovers P verifier L ->
  (proof_new M fuel P prover L = Running /\ exists t, reached t /\ no_challenge (C := C) fuel t) \/
  exists pf L', proof_new M fuel P prover L = Done (Ok (pf, L')) /\ honest_leftovers P verifier L' /\
    (fuel <= 256 -> forall K, match K with None => True | Some K => commits_to_inputs P s K end ->
       exists D forks, proof_verify M' pf L P verifier (tl (l_values s)) K = Done (Ok (true, L', D, forks)) /\
         deferred_verify D (p_k P) = Some true).
Proof.
  intros C r [|] M M' HM HM' fuel P prover verifier s L.
  - exact (complete_top Ec0_laws M M' fuel P prover verifier s L HM HM').
  - exact (complete_top Ec1_laws M M' fuel P prover verifier s L HM HM').
Qed.
(** Any number of proofs in a row, the first with the dummy leftovers: every
    proof, deferred value and leftovers verifies. *)
Theorem C48_in_a_row : forall C r, halo_curve C r -> forall M M', machine_ok M -> machine_ok M' ->
  forall fuel (P : Params C) verifier steps L, good_params P -> fuel <= 256 -> leftovers_dummy M P = Some L ->
  proofs_in_a_row M fuel P L steps ->
  Forall (fun '(prover, _, _, _) => exists s, can_prove P prover verifier s) steps ->
  Forall (fun '(prover, L, pf, L') =>
    leftovers_verify M' L P verifier = Done (Ok true) /\ leftovers_verify M' L' P verifier = Done (Ok true) /\
    forall s, can_prove P prover verifier s -> exists D forks,
      proof_verify M' pf L P verifier (tl (l_values s)) None = Done (Ok (true, L', D, forks)) /\
      deferred_verify D (p_k P) = Some true) steps.
Proof.
  intros C r HC M M' HM HM' fuel P verifier steps L HP Hf HD HR HS.
  destruct steps as [|[[[prover L1] pf] L'] steps]; [constructor|].
  assert (HL : honest_leftovers P verifier L).
  { inversion HS as [|? ? Hs _]; subst. cbv beta iota in Hs. destruct Hs as (s & _ & _ & (t & Ht & _) & _ & Hn & _). assert (Hn1 : p_n P >= 1) by lia.
    destruct HC as [|].
    - destruct (dummy_top Ec0_laws M P verifier t magic_fp HM HP Hn1 Ht) as (L0 & E & H). congruence.
    - destruct (dummy_top Ec1_laws M P verifier t magic_fq HM HP Hn1 Ht) as (L0 & E & H). congruence. }
  destruct HC as [|].
  - exact (row_top Ec0_laws M M' fuel P verifier _ HM HM' HP Hf L HL HR HS).
  - exact (row_top Ec1_laws M M' fuel P verifier _ HM HM' HP Hf L HL HR HS).
Qed.

(** C49: the dummy leftovers are honest for every circuit, so [verify] accepts
    them; the dummy deferred value verifies. *)
Theorem C49_dummy_leftovers : forall C r, halo_curve C r -> forall M M', machine_ok M -> machine_ok M' ->
  forall (P : Params C) circuit t, good_params P -> 1 <= p_n P -> laid_out false circuit t ->
  exists L, leftovers_dummy M P = Some L /\ honest_leftovers P circuit L /\ leftovers_verify M' L P circuit = Done (Ok true).
Proof.
  intros C r [|] M M' HM HM' P circuit t HP Hn HT.
  - destruct (dummy_top Ec0_laws M P circuit t magic_fp HM HP Hn HT) as (L & E & H). exists L. split; [exact E|]. split; [exact H|].
    destruct (good_reps Ec0_laws P HP) as (gs & HG). exact (honest_verify Ec0_laws P HP gs HG M' L circuit t HM' Hn HT H).
  - destruct (dummy_top Ec1_laws M P circuit t magic_fq HM HP Hn HT) as (L & E & H). exists L. split; [exact E|]. split; [exact H|].
    destruct (good_reps Ec1_laws P HP) as (gs & HG). exact (honest_verify Ec1_laws P HP gs HG M' L circuit t HM' Hn HT H).
Qed.
Theorem C49_dummy_deferred : forall C r, halo_curve C r -> forall k, 2 <= k ->
  exists D : Deferred (Scalar C), deferred_dummy k = Some D /\ deferred_verify D k = Some true.
Proof.
  intros C r [|] k; [exact (deferred_dummy_top Ec0_laws k magic_fp)|exact (deferred_dummy_top Ec1_laws k magic_fq)].
Qed.
(** [Deferred::verify] checks the equation between the openings and that the
    claimed inner products are the folded powers, and panics exactly for zero
    challenges, k < 2, no challenges or a challenge without a square root. *)
Theorem C49_deferred_exact : forall F p v, FieldLaws F p v -> forall (D : Deferred F) k xi yi, 2 <= k <= 64 ->
  fmul (d_x D) xi = fone -> fmul (d_y_cur D) yi = fone ->
  let old := d_challenges_sq_packed_old D in let new := d_challenges_sq_packed_new D in
  old <> [] -> new <> [] -> Forall (fun pk => f_sqrt (get_challenge_scalar (F2 := F) pk) <> None) (old ++ new) ->
  exists b, deferred_verify D k = Some b /\
    (b = true <-> deferred_equation (2 ^ (k - 2)) D xi yi /\ powers_fold_to old (d_x D) (d_gx_old_opening D) /\
      powers_fold_to new (d_x D) (d_b_x D) /\ powers_fold_to new (fmul (d_x D) (d_y_cur D)) (d_b_xy D) /\
      powers_fold_to new (d_y_old D) (d_b_y_old D) /\ powers_fold_to new (d_y_cur D) (d_b_y_cur D) /\
      powers_fold_to new (d_y_new D) (d_b_y_new D)).
Proof. intros F p v FL. exact (verify_exact FL). Qed.
Theorem C49_deferred_panics : forall F p v, FieldLaws F p v -> forall (D : Deferred F) k,
  let old := d_challenges_sq_packed_old D in let new := d_challenges_sq_packed_new D in
  deferred_verify D k = None <-> d_x D = fzero \/ d_y_cur D = fzero \/ k < 2 \/ old = [] \/ new = [] \/
    exists pk, In pk (old ++ new) /\ f_sqrt (get_challenge_scalar (F2 := F) pk) = None.
Proof. intros F p v FL. exact (verify_panics FL). Qed.

(** C54: [Leftovers::verify] panics for a wrong number of challenges or one
    without a square root; else it compares the folded generators with [g_new]
    and the commitment to s(X, y_new) with [s_new_commitment], except that a
    computed point at infinity equals everything. *)
Theorem C54_leftovers_exact : forall C r, halo_curve C r -> forall M, machine_ok M -> forall (P : Params C) L circuit t,
  good_params P -> 1 <= p_n P -> laid_out false circuit t -> valid (s_new_commitment L) -> valid (g_new L) ->
  let packed := challenges_sq_packed_new L in
  (length packed <> p_k P -> leftovers_verify M L P circuit = Panicked) /\
  (forall pk, In pk packed -> f_sqrt (get_challenge_scalar (F2 := Scalar C) pk) = None -> leftovers_verify M L P circuit = Panicked) /\
  (length packed = p_k P -> Forall (fun pk => f_sqrt (get_challenge_scalar (F2 := Scalar C) pk) <> None) packed ->
    exists g sx D b, folds_to (p_generators P) packed g /\ compute_sx P circuit (y_new L) = Done (Ok sx) /\
      commitment_to (p_generators P) false sx D /\ leftovers_verify M L P circuit = Done (Ok b) /\
      (b = true <-> (represents g infinity \/ same_point g (g_new L)) /\
                    (represents D infinity \/ same_point D (s_new_commitment L)))).
Proof.
  intros C r [|] M HM P L circuit t HP Hn HT V1 V2.
  - destruct (good_reps Ec0_laws P HP) as (gs & HG). exact (leftovers_char Ec0_laws P HP gs HG M L circuit t HM Hn HT V1 V2).
  - destruct (good_reps Ec1_laws P HP) as (gs & HG). exact (leftovers_char Ec1_laws P HP gs HG M L circuit t HM Hn HT V1 V2).
Qed.

(** *** The hypotheses are met: parameters of any size, the circuit of a square,
    whose verifier has no witness *)
Definition machine3 : Machine := {| cpus := 3; sched := fun site => [1; 2; 2; 1; 7; 2]; ln_ceil := Nat.log2 |}.
Example square_can_prove : forall k x, 3 < k <= 30 -> exists P : Params Ec0, p_k P = k /\ good_params P /\
  can_prove P (square_circuit (Ok x)) (square_circuit (Err AssignmentMissing)) (square_layout x) /\
  exists L, leftovers_dummy machine3 P = Some L /\ honest_leftovers P (square_circuit (Err AssignmentMissing)) L.
Proof.
  intros k x Hk. destruct (params_exist k (proj1 Hk)) as (P & E).
  destruct (params_new_done Ec0_laws gen_bytes 1 k P gen_bytes_random E) as (_ & Pk & Pd & Pn & Pg & HG & _).
  assert (HP : good_params P).
  { unfold good_params. rewrite Pk. split; [apply Hk|]. split; [exact Pd|]. split; [exact Pn|]. split; [exact Pg|].
    clear - HG. induction HG as [|G xy l l' H _ IH]; constructor; [exists (Some xy); exact H|exact IH]. }
  assert (H16 : 16 <= 2 ^ k). { change 16 with (2 ^ 4). apply Nat.pow_le_mono_r; lia. }
  exists P. split; [exact Pk|]. split; [exact HP|]. split.
  - split; [exact (square_true x)|]. split; [eexists; split; [exact (square_false (Ok x))|repeat split]|].
    split; [eexists; split; [exact (square_false (Err AssignmentMissing))|repeat split]|].
    split; [exact (square_satisfied (fl_ops _ _ _ Fp_laws) x)|]. cbn [l_gates l_lcs square_layout square_lcs length]. lia.
  - assert (Hn1 : 1 <= p_n P) by lia.
    destruct (C49_dummy_leftovers Ec0 _ halo_ec0 machine3 machine3 machine3_top machine3_top P _ _ HP Hn1 (square_false (Err AssignmentMissing))) as (L & H1 & H2 & _).
    exists L. split; assumption.
Qed.

Print Assumptions C48_complete.
Print Assumptions C48_in_a_row.
Print Assumptions C49_dummy_leftovers.
Print Assumptions C49_dummy_deferred.
Print Assumptions C49_deferred_exact.
Print Assumptions C49_deferred_panics.
Print Assumptions C54_leftovers_exact.
