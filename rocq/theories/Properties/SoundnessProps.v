(** C72: special soundness of the whole proof system, for verifiers that compare points
    exactly (the code also accepts the point at infinity on one side, which breaks
    soundness: C55).  From a prover that convinces such a verifier for enough
    challenges, values of the wires that satisfy the circuit with the given public
    inputs are computed, or a relation between the generators.  What is computed
    depends on the circuit, the challenges, the openings and the final scalars only,
    not on the points: [extract] is fixed before the generators and the commitments. *)
From Coq Require Import ZArith List Bool Arith Lia.
From Verif Require Import Model.FieldTrait Model.FieldInst Model.Circuits Model.Curve Model.Util Model.Rescue Model.Params Model.Opening Model.Proofs
  Spec.FieldSpec Spec.FieldLaws Spec.CircuitSpec Spec.CurveSpec Spec.CurveLaws Spec.UtilSpec Spec.SystemSpec Spec.ProofSpec Spec.VerifySpec Spec.RecursiveCircuitSpec Spec.ExtractSpec Spec.SoundnessSpec
  Proofs.ZtoF Proofs.SystemP Proofs.IdentityP Proofs.FpFq Proofs.CurveInst Proofs.CurveTop Proofs.ChallengeP Proofs.ParamsP Proofs.ParamsTop Proofs.OpeningP Proofs.OpeningTop Proofs.UtilTop Proofs.UnpackP Proofs.ProverLemmas Proofs.ProverTop Proofs.VerifyP Proofs.ExampleP
  Proofs.ExtractP Proofs.ExtractHonestP Proofs.SoundP Proofs.SoundTopP Proofs.SoundHonestP Properties.ProverProps.
Import ListNotations.
Open Scope nat_scope.
Open Scope list_scope.

(** [s_poly] are the coefficients of s(X, y), which are fixed by the circuit; [k] are
    the coefficients of the polynomial of the public inputs. *)
Theorem C72_extract : forall C r, halo_curve C r ->
  exists extract : nat -> (Scalar C -> list (Scalar C)) -> list (Scalar C) -> stage0 C unit (nat -> answers C) -> found C,
  forall (P : Params C) circuit t s_poly k values K L T, good_params P -> laid_out false circuit t -> l_gates t <= p_n P -> length (l_lcs t) < p_d P ->
  (forall y, compute_sx P circuit y = Done (Ok (s_poly y))) -> (forall q, coeff k q = input_at (l_inputs t) values q) ->
  commitment_to (p_generators P) false k K -> enough (p_n P) (length (l_lcs t)) T ->
  (forall pf y x yn z packed, conversed T pf y x yn z packed -> convinced P circuit K k L pf y x yn z packed) ->
  sound_for (p_generators P) t values (extract (p_n P) s_poly k (scalars0 T)).
Proof.
  assert (X : forall C q vb r vs (CL : CurveLaws C q vb r vs),
    exists extract : nat -> (Scalar C -> list (Scalar C)) -> list (Scalar C) -> stage0 C unit (nat -> answers C) -> found C,
    forall (P : Params C) circuit t s_poly k values K L T, good_params P -> laid_out false circuit t -> l_gates t <= p_n P -> length (l_lcs t) < p_d P ->
    (forall y, compute_sx P circuit y = Done (Ok (s_poly y))) -> (forall q, coeff k q = input_at (l_inputs t) values q) ->
    commitment_to (p_generators P) false k K -> enough (p_n P) (length (l_lcs t)) T ->
    (forall pf y x yn z packed, conversed T pf y x yn z packed -> convinced P circuit K k L pf y x yn z packed) ->
    sound_for (p_generators P) t values (extract (p_n P) s_poly k (scalars0 T))).
  { intros C q vb r vs CL. exists (solve (r := r)). intros P circuit t s_poly k values K L T. exact (sound_top CL P circuit t s_poly k values K L T). }
  intros C r [|]; [exact (X _ _ _ _ _ Ec0_laws)|exact (X _ _ _ _ _ Ec1_laws)].
Qed.

(** What it takes to be convinced, in terms of the code: the verification succeeds, every
    claim with equality, for the right value of the polynomial of the public inputs;
    the new leftovers pass their check (with equality); [Deferred::verify] says true. *)
Theorem C72_convinced : forall C r, halo_curve C r -> forall (P : Params C) circuit K k pf L L' D forks,
  good_params P -> well_formed_proof (p_k P) pf L -> verified_exactly K pf L L' D forks -> d_ky_opening D = eval_at k (d_y_cur D) ->
  honest_leftovers P circuit L' -> deferred_verify D (p_k P) = Some true ->
  exists z, convinced P circuit K k L pf (d_y_cur D) (d_x D) (d_y_new D) z (challenges_sq_packed_new L').
Proof.
  assert (X : forall C q vb r vs (CL : CurveLaws C q vb r vs) (P : Params C) circuit K k pf L L' D forks,
    good_params P -> well_formed_proof (p_k P) pf L -> verified_exactly K pf L L' D forks -> d_ky_opening D = eval_at k (d_y_cur D) ->
    honest_leftovers P circuit L' -> deferred_verify D (p_k P) = Some true ->
    exists z, convinced P circuit K k L pf (d_y_cur D) (d_x D) (d_y_new D) z (challenges_sq_packed_new L')).
  { intros C q vb r vs CL P circuit K k pf L L' D forks HP HW HV Hky HL HD. pose proof (cl_scalar _ _ _ _ _ CL) as SL.
    destruct HV as (gx & y & x & yn & z & t & t' & claims & V1 & _ & V3 & _ & V5 & V6 & V7 & V8 & V9 & V10 & V11 & V12 & V13 & V14 & V15 & V16 & V17 & _).
    exists z. rewrite V9, V11, V12. split; [exact HW|]. split.
    { exists gx, claims. split; [exact V1|]. rewrite <- V11, <- Hky, V11. split; [exact V3|exact V5]. }
    split; [destruct L' as [s yn' g pks]; cbn [s_new_commitment y_new g_new challenges_sq_packed_new] in *; subst; exact HL|].
    pose proof (C49_deferred_panics _ _ _ SL D (p_k P)) as NP. cbv zeta in NP.
    assert (NP' : forall Q : Prop, (Q -> deferred_verify D (p_k P) = None) -> ~ Q) by (intros Q H HQ; rewrite (H HQ) in HD; discriminate HD).
    assert (Zx : d_x D <> fzero) by (apply NP'; intro; apply NP; auto). assert (Zy : d_y_cur D <> fzero) by (apply NP'; intro; apply NP; auto).
    assert (Zk : ~ p_k P < 2) by (apply NP'; intro; apply NP; auto).
    assert (Zo : d_challenges_sq_packed_old D <> []) by (apply NP'; intro; apply NP; auto 6).
    assert (Zn : d_challenges_sq_packed_new D <> []) by (apply NP'; intro; apply NP; auto 6).
    destruct (finvert_some SL _ Zx) as (xi & _ & Hxi). destruct (finvert_some SL _ Zy) as (yi & _ & Hyi).
    assert (Zr : Forall (fun pk => f_sqrt (get_challenge_scalar (F2 := Scalar C) pk) <> None) (d_challenges_sq_packed_old D ++ d_challenges_sq_packed_new D)).
    { apply Forall_forall. intros pk Hpk. apply NP'. intro E. apply NP. do 5 right. exists pk. split; [exact Hpk|exact E]. }
    pose proof HP as (Pk & _ & Pn & _). assert (En : p_n P = 2 ^ (p_k P - 2)).
    { destruct (p_k P) as [|[|k0]]; [lia|lia|]. replace (S (S k0) - 2) with k0 by lia. cbn [Nat.pow] in Pn. lia. }
    destruct (C49_deferred_exact _ _ _ SL D (p_k P) xi yi ltac:(lia) Hxi Hyi Zo Zn Zr) as (b & Eb & HB). rewrite HD in Eb. injection Eb as <-.
    destruct (proj1 HB eq_refl) as (EQ & _). rewrite <- En in EQ.
    exists D, xi, yi. rewrite <- V9, <- V11. do 2 (split; [reflexivity|]). split; [exact Hky|]. repeat (split; [assumption|]). exact EQ. }
  intros C r [|]; [exact (X _ _ _ _ _ Ec0_laws)|exact (X _ _ _ _ _ Ec1_laws)].
Qed.

(** *** The hypotheses are met: for every satisfied circuit there is such a prover (the
    honest one) *)
Lemma numbers_exist {F : Field} {p v} (FL : FieldLaws F p v) N : (Z.of_nat N < p)%Z ->
  exists l : list F, length l = N /\ NoDup l /\ Forall (fun x => x <> fzero) l.
Proof.
  intro HN. pose proof (fl_ops _ _ _ FL) as OL. exists (map (fun i => fz (Z.of_nat i)) (seq 1 N)). split; [rewrite map_length; apply seq_length|].
  assert (I : forall i j, i <= N -> j <= N -> fz (F := F) (Z.of_nat i) = fz (Z.of_nat j) -> i = j) by (intros i j Hi Hj E; apply (fz_inj OL) in E; lia). split.
  - assert (G : forall l, Forall (fun i => i <= N) l -> NoDup l -> NoDup (map (fun i => fz (F := F) (Z.of_nat i)) l)).
    { induction l as [|i l IH]; intros HF HD; [constructor|]. inversion HF as [|? ? H1 H2]; subst. inversion HD as [|? ? H3 H4]; subst. cbn [map]. constructor; [|apply IH; assumption].
      intro HI. apply in_map_iff in HI. destruct HI as (j & E & HI). apply H3. rewrite <- (I j i); [exact HI| |exact H1|exact E]. exact (proj1 (Forall_forall _ _) H2 j HI). }
    apply G; [|apply seq_NoDup]. apply Forall_forall. intros i Hi. apply in_seq in Hi. lia.
  - apply Forall_forall. intros x Hx. apply in_map_iff in Hx. destruct Hx as (i & <- & Hi). apply in_seq in Hi. intro E.
    apply (I i 0) in E; lia.
Qed.
Lemma seven_exist {F : Field} {p v} (FL : FieldLaws F p v) : exists zs : list F, length zs = 7 /\ NoDup (map (get_challenge_scalar (F2 := F)) zs).
Proof.
  pose proof (fl_ops _ _ _ FL) as OL. pose proof (proj1 (fl_size _ _ _ FL)) as HS.
  assert (X : forall i, exists z : F, i < 7 -> v z = (4 * Z.of_nat i)%Z).
  { intro i. destruct (Nat.lt_ge_cases i 7) as [Hi|Hi]; [|exists fzero; lia]. destruct (ol_surj _ _ _ OL (4 * Z.of_nat i)%Z) as (z & E); [|exists z; auto].
    assert (28 < 2 ^ 254)%Z by reflexivity. lia. }
  assert (Y : forall l, Forall (fun i => i < 7) l -> NoDup l -> exists zs : list F, Forall2 (fun i z => v z = (4 * Z.of_nat i)%Z) l zs /\ NoDup (map (get_challenge_scalar (F2 := F)) zs)).
  { induction l as [|i l IH]; intros HF HD; [exists []; split; constructor|]. inversion HF as [|? ? H1 H2]; subst. inversion HD as [|? ? H3 H4]; subst.
    destruct (IH H2 H4) as (zs & E & N). destruct (X i) as (z & Ez). exists (z :: zs). split; [constructor; auto|]. cbn [map]. constructor; [|exact N].
    intro HI. apply in_map_iff in HI. destruct HI as (z' & E' & HI). apply H3. clear - E E' HI Ez H1 H2 FL. induction E as [|j z'' l zs Hj HE IHE]; [destruct HI|].
    inversion H2 as [|? ? K1 K2]; subst. destruct HI as [->|HI]; [|right; apply IHE; assumption]. left.
    rewrite !(challenge_emb FL FL), Hj, (Ez H1) in E'. apply (emb_inj FL) in E'. clear - E' H1 K1.
    do 7 (destruct i as [|i]; [do 7 (destruct j as [|j]; [first [reflexivity|vm_compute in E'; discriminate E']|]); lia|]). lia. }
  destruct (Y (seq 0 7)) as (zs & E & N); [|apply seq_NoDup|].
  - apply Forall_forall. intros i Hi. apply in_seq in Hi. lia.
  - exists zs. split; [|exact N]. symmetry. exact (UnpackP.Forall2_length _ _ _ E).
Qed.

Example C72_nonvacuous : forall C r, halo_curve C r -> forall (P : Params C) circuit t values a b c, good_params P -> laid_out false circuit t -> l_gates t <= p_n P -> length (l_lcs t) < p_d P ->
  length a = l_gates t -> length b = l_gates t -> length c = l_gates t ->
  gates_satisfied (l_gates t) a b c -> lcs_satisfied (l_lcs t) (l_inputs t) values a b c ->
  exists s_poly k K L T,
    (forall y, compute_sx P circuit y = Done (Ok (s_poly y))) /\ (forall q, coeff k q = input_at (l_inputs t) values q) /\
    commitment_to (p_generators P) false k K /\ honest_leftovers P circuit L /\ enough (p_n P) (length (l_lcs t)) T /\
    (exists pf y x yn z packed, conversed T pf y x yn z packed) /\
    (forall pf y x yn z packed, conversed T pf y x yn z packed -> convinced P circuit K k L pf y x yn z packed).
Proof.
  assert (X : forall C q vb r vs (CL : CurveLaws C q vb r vs) (P : Params C) circuit t values a b c L, good_params P -> laid_out false circuit t -> l_gates t <= p_n P -> length (l_lcs t) < p_d P ->
    length a = l_gates t -> length b = l_gates t -> length c = l_gates t ->
    gates_satisfied (l_gates t) a b c -> lcs_satisfied (l_lcs t) (l_inputs t) values a b c -> honest_leftovers P circuit L ->
    exists s_poly k K T,
      (forall y, compute_sx P circuit y = Done (Ok (s_poly y))) /\ (forall q, coeff k q = input_at (l_inputs t) values q) /\
      commitment_to (p_generators P) false k K /\ enough (p_n P) (length (l_lcs t)) T /\
      (exists pf y x yn z packed, conversed T pf y x yn z packed) /\
      (forall pf y x yn z packed, conversed T pf y x yn z packed -> convinced P circuit K k L pf y x yn z packed)).
  { intros C q vb r vs CL P circuit t values a b c L HP HT Hg HQ La Lb Lc H1 H2 HL. pose proof (cl_scalar _ _ _ _ _ CL) as SL. pose proof (fl_ops _ _ _ SL) as SO.
    pose proof HP as (Pk & Pd & Pn & PL & PV). destruct (valid_reps CL _ PV) as (gs & HG).
    assert (Hs : forall y, compute_sx P circuit y = Done (Ok (match compute_sx P circuit y with Done (Ok s) => s | _ => [] end))).
    { intro y. destruct (compute_sx_eq CL P circuit t y HT) as (u & w & z & E & _). rewrite E. reflexivity. }
    set (k := map (input_at (l_inputs t) values) (seq 0 (p_d P))).
    assert (Hk : forall q, coeff k q = input_at (l_inputs t) values q).
    { intro j. destruct (Nat.lt_ge_cases j (p_d P)) as [Hj|Hj]; [exact (IdentityP.coeff_map_seq _ _ _ Hj)|].
      unfold coeff. rewrite nth_overflow by (unfold k; rewrite map_length, seq_length; exact Hj). symmetry.
      pose proof (lo_range t (lay_ok_run _ _ _ _ _ (ok_layout0 false) HT)) as HR. revert HR. generalize values. clear - HQ Hj.
      induction (l_inputs t) as [|p l IH]; intros [|w vals] HR; try reflexivity. inversion HR as [|? ? R1 R2]; subst. cbn [input_at].
      destruct (Nat.eqb_spec p j) as [E|E]; [lia|]. apply IH, R2. }
    assert (HK : commitment_to (p_generators P) false k (pt_sum (resize k (length (p_generators P))) (p_generators P))).
    { apply (commit_iff CL _ gs _ _ HG); [unfold k; rewrite map_length, seq_length, Pd, PL; lia|]. exact (pt_sum_rep CL _ _ _ HG). }
    assert (Hn : 1 <= p_n P) by (pose proof (Nat.pow_nonzero 2 (p_k P)); lia).
    assert (HN : (Z.of_nat (10 * p_n P) < r)%Z).
    { assert (2 ^ Z.of_nat (p_k P) <= 2 ^ 30)%Z by (apply Z.pow_le_mono_r; lia). pose proof (proj1 (fl_size _ _ _ SL)) as HS. assert (3 * 2 ^ 30 < 2 ^ 254)%Z by reflexivity.
      assert (Z.of_nat (4 * p_n P) = 2 ^ Z.of_nat (p_k P))%Z by (rewrite Pn, Nat2Z.inj_pow; reflexivity). lia. }
    destruct (numbers_exist SL _ HN) as (l & L1 & L2 & L3). destruct (seven_exist SL) as (zs & Z1 & Z2).
    destruct (four_packed CL) as (packed & e & ei & E0 & E1 & E2 & E3).
    destruct (honest_tree CL packed e ei E1 E2 E3 P circuit t _ k values _ L a b c HP HT Hg HQ Hs Hk HK HL La Lb Lc H1 H2 l l l zs) as (T & _ & HE & HC); try assumption; try (rewrite L1; lia).
    eexists _, k, _, T. split; [exact Hs|]. split; [exact Hk|]. split; [exact HK|]. split; [exact HE|]. split; [|exact HC].
    assert (NE : forall {A} (l : list A), 1 <= length l -> exists x, In x l) by (intros A [|x m] Hm; [cbn in Hm; lia|exists x; left; reflexivity]).
    destruct HE as (_ & N0 & HE). destruct (NE _ (with_y _ _ T) ltac:(lia)) as ((y & T1) & I0).
    destruct (HE y T1 I0) as (_ & N1 & HE1). destruct (NE _ (with_x _ _ T1) ltac:(lia)) as ((x & T2) & I1).
    destruct (HE1 x T2 I1) as (_ & N2 & HE2). destruct (NE _ (with_y_new _ _ T2) ltac:(lia)) as ((yn & T3) & I2).
    destruct (HE2 yn T3 I2) as (_ & N3 & HE3). destruct (NE _ (with_z _ _ T3) ltac:(lia)) as ((z & p) & I3).
    assert (R : forall p : prover C, exists pf pks, run p pf pks).
    { clear. induction p as [a g|round pk next IH]; [eexists _, _; constructor|]. destruct (IH B1) as ([rounds a g] & pks & H). eexists _, _. apply run_round with (b := B1). exact H. }
    destruct (R p) as (ip & pks & HR). eexists _, y, x, yn, z, pks. exists T1, T2, T3, p, ip. repeat (split; [eassumption|]). reflexivity. }
  intros C r HC P circuit t values a b c HP HT Hg HQ La Lb Lc H1 H2.
  assert (Hn : 1 <= p_n P) by (pose proof HP as (_ & _ & Pn & _); pose proof (Nat.pow_nonzero 2 (p_k P)); lia).
  destruct (C49_dummy_leftovers C r HC machine3 machine3 machine3_top machine3_top P circuit t HP Hn HT) as (L & _ & HL & _).
  assert (Y : exists q vb vs, inhabited (CurveLaws C q vb r vs)) by (destruct HC; do 3 eexists; constructor; [exact Ec0_laws|exact Ec1_laws]).
  destruct Y as (q & vb & vs & [CL]).
  destruct (X C q vb r vs CL P circuit t values a b c L HP HT Hg HQ La Lb Lc H1 H2 HL) as (s_poly & k & K & T & A1 & A2 & A3 & A4 & A5 & A6).
  exists s_poly, k, K, L, T. repeat (split; [assumption|]). exact A6.
Qed.
(** For instance the circuit of a square, with parameters of any size *)
Example C72_square : forall k x, 3 < k <= 30 -> exists P : Params Ec0, p_k P = k /\ good_params P /\
  exists (t : layout Fp) s_poly k K L T values, laid_out false (square_circuit (Err AssignmentMissing)) t /\ l_gates t <= p_n P /\ length (l_lcs t) < p_d P /\ values = l_values (square_layout x) /\
    (forall y, compute_sx P (square_circuit (Err AssignmentMissing)) y = Done (Ok (s_poly y))) /\ (forall q, coeff k q = input_at (l_inputs t) values q) /\
    commitment_to (p_generators P) false k K /\ honest_leftovers P (square_circuit (Err AssignmentMissing)) L /\ enough (p_n P) (length (l_lcs t)) T /\
    (exists pf y x yn z packed, conversed T pf y x yn z packed) /\
    (forall pf y x yn z packed, conversed T pf y x yn z packed -> convinced P (square_circuit (Err AssignmentMissing)) K k L pf y x yn z packed).
Proof.
  intros k x Hk. destruct (square_can_prove k x Hk) as (P & Pk & HP & HC & _). exists P. split; [exact Pk|]. split; [exact HP|].
  destruct HC as (C1 & _ & (t & Ht & S1 & S2 & S3) & (G1 & G2) & C5 & C6).
  assert (LN : length (l_a (square_layout x)) = l_gates (square_layout x) /\ length (l_b (square_layout x)) = l_gates (square_layout x) /\ length (l_c (square_layout x)) = l_gates (square_layout x))
    by (repeat split; reflexivity). destruct LN as (LN1 & LN2 & LN3). rewrite S1 in *. rewrite S2, S3 in *.
  destruct (C72_nonvacuous Ec0 _ halo_ec0 P _ t (l_values (square_layout x)) (l_a (square_layout x)) (l_b (square_layout x)) (l_c (square_layout x)) HP Ht (Nat.lt_le_incl _ _ C5) C6 LN1 LN2 LN3 G1 G2)
    as (s_poly & k' & K & L & T & H).
  exists t, s_poly, k', K, L, T, (l_values (square_layout x)). split; [exact Ht|]. split; [exact (Nat.lt_le_incl _ _ C5)|]. split; [exact C6|]. split; [reflexivity|]. exact H.
Qed.

Print Assumptions C72_extract.
Print Assumptions C72_convinced.
Print Assumptions C72_nonvacuous.
Print Assumptions C72_square.
