(** The proofs that [create_proof] makes, one after the other, are accepted. *)
From Coq Require Import String List Bool Arith ZArith Lia.
From Verif Require Import Lib.AbGroup Lib.Abel Model.FieldTrait Model.FieldInst Model.Circuits Model.Num Model.Boolean Model.Curve Model.Threads Model.Util Model.Rescue Model.Params
  Model.Opening Model.Proofs Model.Recursion Model.RecursiveProof
  Spec.FieldLaws Spec.CircuitSpec Spec.BoolSpec Spec.SystemSpec Spec.CurveSpec Spec.CurveLaws Spec.UtilSpec Spec.ProofSpec Spec.RecursionSpec Spec.VerifySpec Spec.RecursiveCircuitSpec Spec.UniformSpec Spec.ChainSpec Spec.CheatSpec
  Proofs.FieldGen Proofs.FpFq Proofs.CurveInst Proofs.CurveTop Proofs.MultiexpP Proofs.OpeningP Proofs.OpeningTop Proofs.ProverLemmas Proofs.ProverTop Proofs.UnpackP Proofs.EncodeP Proofs.RecursionGlue Proofs.SystemP Proofs.BoolP Proofs.AlikeRecursionP Proofs.RecursiveSystemP
  Properties.ProverProps Properties.RecursiveCircuitProps Properties.RecursiveSystemProps.
Import ListNotations.
Open Scope nat_scope. Open Scope list_scope.
Local Notation length := List.length.

(** *** The same thing over an equal field *)
Section Cast.
  Context {F : Field}.
  Lemma cast_uniform {G : Field} (H : F = G) ok (c : RecursiveCircuit G) : uniform ok c -> uniform ok (cast (P := RecursiveCircuit) (eq_sym H) c).
  Proof. destruct H. exact (fun X => X). Qed.
  Lemma cast_payload {G : Field} (H : F = G) (c : RecursiveCircuit G) : base_payload (cast (P := RecursiveCircuit) (eq_sym H) c) = base_payload c.
  Proof. destruct H. reflexivity. Qed.
  Lemma cast_accepts {G : Field} (H : F = G) (c : RecursiveCircuit G) a b : accepts c a b -> accepts (cast (P := RecursiveCircuit) (eq_sym H) c) a b.
  Proof. destruct H. exact (fun X => X). Qed.
  Lemma cast_deferred {G : Field} (H : F = G) (D : Deferred G) (k : nat) : let D' := cast (P := Deferred) (eq_sym H) D in
    deferred_to_bytes D' = deferred_to_bytes D /\ deferred_verify D' k = deferred_verify D k /\
    length (d_challenges_sq_packed_old D') = length (d_challenges_sq_packed_old D) /\ length (d_challenges_sq_packed_new D') = length (d_challenges_sq_packed_new D) /\
    (Forall small (half_parts D) -> Forall small (half_parts D')).
  Proof. destruct H. repeat split; auto. Qed.
End Cast.
Lemma public_inputs_eq : forall C q vb r vs (CL : CurveLaws C q vb r vs) (self : VerificationCircuit C) lb L D s,
      vc_old_leftovers self = Some lb -> vc_new_leftovers self = Some L -> vc_deferred self = Some D ->
      l_inputs s = seq 1 (S (length (in_payload self ++ in_old self ++ in_new self ++ in_deferred self))) /\
      l_values s = (if true then fone else fzero) :: map (fun b => if true then f_from_bool b else fzero) (in_payload self ++ in_old self ++ in_new self ++ in_deferred self) ->
      l_values s = @fone (Base C) :: map of_bit (public_bits self lb L D) /\ l_inputs s = seq 1 (length (l_values s)).
Proof.
    intros C q vb r vs CL self lb L D s E1 E2 E3 (H1 & H2). unfold in_payload, in_old, in_new, in_deferred, bytes_bits in *. rewrite E1, E2, E3 in *.
    rewrite H1, H2. cbn [length]. rewrite map_length. split; [|reflexivity]. f_equal. unfold public_bits. rewrite !flat_map_app.
      apply map_ext. intro b. apply (fb_of_bit (cl_base _ _ _ _ _ CL)).
Qed.
Section CastCircuit.
  Context {C : Curve} {r : Z} (HC : halo_curve C r).
  Notation circuit H vc := (cast (P := fun F => Var -> CS F unit) H (fun one => vc_synthesize one vc)).
  (** blank circuits for payloads of the same length *)
  Lemma cast_blank {G : Field} (H : Base C = G) (P : Params C) inner len ok payload payload' t :
    payload_ok len ok payload -> payload_ok len ok payload' -> uniform ok inner -> 2 <= p_k P -> good_generators P -> starts_well P ->
    laid_out false (circuit H (mkVC P None inner None payload None None None None)) t ->
    exists t', laid_out false (circuit H (mkVC P None inner None payload' None None None None)) t' /\ same_system t t'.
  Proof.
    destruct H. intros [EL _] [EL' HOk] HU Hk HG HS HT.
    exact (C60_same_system C r HC (mkVC P None inner None payload None None None None) (mkVC P None inner None payload' None None None None) ok eq_refl eq_refl ltac:(cbn; congruence)
      ltac:(constructor; discriminate) ltac:(constructor; discriminate) HU HOk Hk HG HS false t HT).
  Qed.
  Notation circuit_with H sums vc := (cast (P := fun F => Var -> CS F unit) H (fun one => vc_synthesize_with one (endo_chain_with one sums) vc)).
  Notation keeps := (Forall (fun sum => forall c1 c2 : C, valid c1 -> valid c2 -> valid (sum c1 c2))).
  (** the circuit of a dishonest prover, too *)
  Lemma prover_with (vc vc' : VerificationCircuit C) ok sums sums' : shaped vc -> shaped vc' -> uniform ok (vc_inner vc) -> ok (flat_map byte_bits (vc_new_payload vc)) -> ok (flat_map byte_bits (vc_new_payload vc')) ->
    vc_params vc' = vc_params vc -> vc_inner vc' = vc_inner vc -> length (vc_new_payload vc) = length (vc_new_payload vc') ->
    2 <= p_k (vc_params vc) -> good_generators (vc_params vc) -> starts_well (vc_params vc) -> keeps sums -> keeps sums' ->
    ((forall w : assignment (Base C), w (VA 1) = fone -> complete w (vc_synthesize_with (VA 1) (endo_chain_with (VA 1) sums) vc) (fun _ => True)) ->
       exists s, laid_out true (circuit_with eq_refl sums vc) s /\ satisfied s) /\
    (forall ran s, laid_out ran (circuit_with eq_refl sums vc) s -> exists t, laid_out false (circuit_with eq_refl sums' vc') t /\ same_system s t) /\
    (forall lb L D s, vc_old_leftovers vc = Some lb -> vc_new_leftovers vc = Some L -> vc_deferred vc = Some D -> laid_out true (circuit_with eq_refl sums vc) s ->
       l_values s = fone :: map of_bit (public_bits vc lb L D) /\ l_inputs s = seq 1 (length (l_values s))) /\
    (forall s, laid_out false (circuit_with eq_refl sums vc) s -> l_inputs s = seq 1 (S (length (in_payload vc ++ in_old vc ++ in_new vc ++ in_deferred vc)))).
  Proof.
    intros SH SH' HU HOk HOk' EP EI EL Hk HG HS HSm HSm'. destruct HC; (split; [|split; [|split]]).
    - exact (circuit_satisfied_with Ec0_laws (dummy_exists _ _ halo_ec0) vc ok SH HU HOk Hk HG HS sums HSm).
    - exact (circuits_same_system_with Ec0_laws (dummy_exists _ _ halo_ec0) vc vc' ok SH SH' EP EI EL HU HOk' Hk HG HS sums sums' HSm').
    - intros lb L D s E1 E2 E3 HL. exact (public_inputs_eq _ _ _ _ _ Ec0_laws vc lb L D s E1 E2 E3 (circuit_inputs_with Ec0_laws (dummy_exists _ _ halo_ec0) vc ok SH HU HOk Hk HG HS sums HSm true s HL)).
    - intros s HL. exact (proj1 (circuit_inputs_with Ec0_laws (dummy_exists _ _ halo_ec0) vc ok SH HU HOk Hk HG HS sums HSm false s HL)).
    - exact (circuit_satisfied_with Ec1_laws (dummy_exists _ _ halo_ec1) vc ok SH HU HOk Hk HG HS sums HSm).
    - exact (circuits_same_system_with Ec1_laws (dummy_exists _ _ halo_ec1) vc vc' ok SH SH' EP EI EL HU HOk' Hk HG HS sums sums' HSm').
    - intros lb L D s E1 E2 E3 HL. exact (public_inputs_eq _ _ _ _ _ Ec1_laws vc lb L D s E1 E2 E3 (circuit_inputs_with Ec1_laws (dummy_exists _ _ halo_ec1) vc ok SH HU HOk Hk HG HS sums HSm true s HL)).
    - intros s HL. exact (proj1 (circuit_inputs_with Ec1_laws (dummy_exists _ _ halo_ec1) vc ok SH HU HOk Hk HG HS sums HSm false s HL)).
  Qed.
  Lemma cast_prover {G : Field} (H : Base C = G) (vc : VerificationCircuit C) ok lb L D sums :
    vc_old_leftovers vc = Some lb -> vc_new_leftovers vc = Some L -> vc_deferred vc = Some D ->
    shaped vc -> uniform ok (vc_inner vc) -> ok (flat_map byte_bits (vc_new_payload vc)) -> 2 <= p_k (vc_params vc) -> good_generators (vc_params vc) -> starts_well (vc_params vc) -> keeps sums ->
    (forall w : assignment (Base C), w (VA 1) = fone -> complete w (vc_synthesize_with (VA 1) (endo_chain_with (VA 1) sums) vc) (fun _ => True)) ->
    exists s : layout G, laid_out true (circuit_with H sums vc) s /\ satisfied s /\ (exists t, laid_out false (circuit_with H sums vc) t /\ same_system s t) /\
      (exists t, laid_out false (circuit H (mkVC (vc_params vc) None (vc_inner vc) None (vc_new_payload vc) None None None None)) t /\ same_system s t) /\
      l_values s = fone :: map of_bit (public_bits vc lb L D) /\ l_inputs s = seq 1 (length (l_values s)) /\ length (l_values s) <= length (l_lcs s).
  Proof.
    destruct H. intros E1 E2 E3 SH HU HOk Hk HG HS HSm HCm.
    destruct (prover_with vc vc ok sums sums SH SH HU HOk HOk eq_refl eq_refl eq_refl Hk HG HS HSm HSm) as (X1 & X2 & X3 & _).
    destruct (X1 HCm) as (s & H1 & H2). exists s. destruct (X3 lb L D s E1 E2 E3 H1) as (H3 & H4).
    split; [exact H1|]. split; [exact H2|]. split; [exact (X2 true s H1)|].
    split. { set (vc' := mkVC _ _ _ _ _ _ _ _ _).
      destruct (prover_with vc vc' ok sums [] SH ltac:(constructor; discriminate) HU HOk HOk eq_refl eq_refl eq_refl Hk HG HS HSm (Forall_nil _)) as (_ & Y & _). exact (Y true s H1). }
    split; [exact H3|]. split; [exact H4|].
    pose proof (lay_ok_run true _ _ _ _ (ok_layout0 true) H1) as HO. pose proof (lo_range s HO) as HR. rewrite H4 in HR.
    assert (HN : exists n, length (l_values s) = S n) by (rewrite H3; eexists; reflexivity). destruct HN as (n & HN). rewrite HN in *.
    rewrite Forall_forall in HR. apply (HR (S n)), in_seq. lia.
  Qed.
End CastCircuit.

(** *** The commitment to the input bits *)
Section Inputs.
  Context {C : Curve} {q vb r vs} (CL : CurveLaws C q vb r vs).
  Notation G := (cl_group _ _ _ _ _ CL).
  Notation pt := (cl_point _ _ _ _ _ CL).
  Notation rep := (CurveTop.rep CL).
  Notation zsum := (MultiexpP.zsum CL).
  Let SO := fl_ops _ _ _ (cl_scalar _ _ _ _ _ CL).
  Let of (b : bool) : Scalar C := of_bit b.
  Lemma bit_inputs_rep bits : forall gens gs K g, Forall2 rep gens gs -> length bits <= length gens -> rep K g ->
    exists K', bit_inputs K gens bits = Some (K', map of_bit bits) /\ rep K' (gp g (zsum (map vs (map of bits)) gs)).
  Proof.
    induction bits as [|b bits IH]; intros gens gs K g HG HL HK.
    - exists K. split; [reflexivity|]. cbn [map]. rewrite zsum_nil. replace (gp g g0) with g by abel. exact HK.
    - destruct HG as [|X h gens gs HX HG]; [cbn [length] in HL; lia|]. cbn [length] in HL. cbn [bit_inputs hd_error tl map MultiexpP.zsum option_map].
      destruct (IH gens gs (if b then c_add K X else K) (if b then gp g h else g) HG ltac:(lia)) as (K' & E & HK').
      { destruct b; [apply (rep_add CL); assumption|exact HK]. }
      exists K'. split.
      + destruct b; cbn [obind]; rewrite E; cbn [obind]; reflexivity.
      + replace (gp g (gp (zmul (vs (of b)) h) (zsum (map vs (map of bits)) gs))) with (gp (if b then gp g h else g) (zsum (map vs (map of bits)) gs)); [exact HK'|].
        unfold of at 2, of_bit. destruct b; [rewrite (ol_one _ _ _ SO)|rewrite (ol_zero _ _ _ SO)]; rewrite ?zmul_1, ?zmul_0; abel.
  Qed.
  Lemma bit_sum_rep gens xys gs : Forall2 (fun X xy => represents X (Some xy)) gens xys -> Forall2 rep gens gs ->
    forall bits g B, length bits <= length gens -> bit_sum xys bits (pt g) B -> B = pt (gp g (zsum (map vs (map of bits)) gs)).
  Proof.
    intro HX. revert gs. induction HX as [|X xy gens xys H HX IH]; intros gs HG bits g B HL HB; inversion HG as [|? h ? gs' Hh HG']; subst.
    - destruct bits; [|cbn [length] in HL; lia]. inversion HB; subst; cbn [map MultiexpP.zsum]; f_equal; abel.
    - assert (Exy : Some xy = pt h). { destruct (rep_ex CL X _ H) as (h' & -> & Hh'). f_equal. exact (rep_fun CL X _ _ Hh' Hh). }
      inversion HB as [| |x y gens0 b bits' A S B' N1 N2 N3 HS HB']; subst.
      + cbn [map MultiexpP.zsum]. f_equal. abel.
      + rewrite Exy in HS. apply (cl_sum _ _ _ _ _ CL) in HS.
        assert (ES : (if b then S else pt g) = pt (if b then gp g h else g)) by (destruct b; [exact HS|reflexivity]). rewrite ES in HB'.
        cbn [length] in HL. rewrite (IH gs' HG' bits' _ B ltac:(lia) HB'). f_equal. cbn [map MultiexpP.zsum]. unfold of at 2, of_bit.
        destruct b; [rewrite (ol_one _ _ _ SO)|rewrite (ol_zero _ _ _ SO)]; rewrite ?zmul_1, ?zmul_0; abel.
  Qed.

  Lemma input_at_seq (l : list (Scalar C)) : forall a i, input_at (seq a (length l)) l i = if a <=? i then nth (i - a) l fzero else fzero.
  Proof.
    induction l as [|x l IH]; intros a i; cbn [length seq input_at]; [destruct (a <=? i); [destruct (i - a)|]; reflexivity|].
    rewrite IH. destruct (Nat.eqb_spec a i) as [->|N].
    - rewrite Nat.leb_refl, Nat.sub_diag. reflexivity.
    - destruct (Nat.leb_spec (S a) i) as [H|H]; destruct (Nat.leb_spec a i) as [H'|H']; try lia; [|reflexivity].
      replace (i - a) with (S (i - S a)) by lia. reflexivity.
  Qed.
  Lemma zsum_first ks : forall gs, zsum ks (firstn (length ks) gs) = zsum ks gs.
  Proof. induction ks as [|k ks IH]; intros [|g gs]; cbn [length firstn MultiexpP.zsum]; try reflexivity. rewrite IH. reflexivity. Qed.
  Lemma inputs_commitment (P : Params C) a b gs bits K s : Forall2 rep (p_generators P) (a :: b :: gs) -> S (S (length bits)) <= length (p_generators P) ->
    rep K (gp b (zsum (map vs (map of bits)) gs)) -> l_values s = fone :: map of bits -> l_inputs s = seq 1 (length (l_values s)) -> commits_to_inputs P s K.
  Proof.
    intros HG HL HK EV EI. exists (fzero :: fone :: map of bits). split.
    - apply (commitment_rep CL _ _ _ _ _ HG). cbn [length]. rewrite map_length. split; [exact HL|]. unfold position. 
      replace (S (S (length bits))) with (length (map vs (fzero :: fone :: map of bits))) by (cbn [map length]; rewrite !map_length; reflexivity).
      rewrite zsum_first. cbn [map MultiexpP.zsum]. rewrite (ol_zero _ _ _ SO), (ol_one _ _ _ SO), zmul_0, zmul_1.
      replace (gp g0 _) with (gp b (zsum (map vs (map of bits)) gs)) by abel. exact HK.
    - intro i. rewrite EI, input_at_seq, EV. unfold coeff. destruct i as [|i]; [reflexivity|]. cbn [Nat.leb]. rewrite Nat.sub_succ, Nat.sub_0_r. reflexivity.
  Qed.
End Inputs.

(** *** Challenges are below 2^128 *)
Section Small.
  Context {C : Curve}.
  Lemma challenge_small (t : Rescue (Base C)) (c : Scalar C) t' : challenge_after t c t' -> small c.
  Proof.
    intros (e & _ & E). unfold small. rewrite E. pose proof (Z.mod_pos_bound (le_val (f_to_bytes e)) (2 ^ 127) ltac:(reflexivity)) as H.
    assert (X : (2 ^ 128 = 2 ^ 127 + 2 ^ 127)%Z) by reflexivity. rewrite X. lia.
  Qed.
  Lemma rounds_small m (t : Rescue (Base C)) rounds packed forks t' : rounds_run m t rounds packed forks t' ->
    Forall small packed /\ length packed = length rounds /\ length forks = length rounds /\ Forall (fun n => n < 256) forks.
  Proof.
    induction 1 as [|t round ms n packed t1 rounds packeds forks t' H1 H2 H3 H4 H5 H6 (I1 & I2 & I3 & I4)]; [repeat split; constructor|].
    split; [constructor; [exact (challenge_small _ _ _ H4)|exact I1]|]. cbn [length]. split; [lia|]. split; [lia|]. constructor; assumption.
  Qed.
  Lemma verified_small (K : C) k pf L L' D forks : well_formed_proof k pf L -> length (challenges_sq_packed_new L) = k -> Forall small (y_new L :: challenges_sq_packed_new L) ->
    verified_exactly K pf L L' D forks ->
    Forall small (y_new L' :: challenges_sq_packed_new L') /\ length (challenges_sq_packed_new L') = k /\ Forall small (half_parts D) /\
    length (d_challenges_sq_packed_old D) = k /\ length (d_challenges_sq_packed_new D) = k /\ length forks = k /\ Forall (fun n => n < 256) forks.
  Proof.
    intros (_ & (_ & HR & _) & _) HL HS (gx & y & x & yn & z & t & t' & claims & H). cbv zeta in H.
    destruct H as (_ & (t1 & t2 & t3 & C1 & C2 & C3 & C4) & _ & H3 & _ & _ & E1 & _ & E2 & E3 & E4 & E5 & _ & _ & _ & _ & _ & E6 & _ & E7 & _).
    destruct (rounds_small _ _ _ _ _ _ H3) as (S1 & S2 & S3 & S4). rewrite HR in S2, S3.
    pose proof (challenge_small _ _ _ C1). pose proof (challenge_small _ _ _ C2). pose proof (challenge_small _ _ _ C3).
    assert (HS0 := Forall_inv HS). assert (HS1 := Forall_inv_tail HS).
    split; [constructor; [rewrite E1; assumption|exact S1]|]. split; [exact S2|]. split.
    { unfold half_parts. rewrite E2, E3, E4, E5, E6, E7. repeat (constructor; [assumption|]). apply Forall_app. split; assumption. }
    rewrite E6, E7. repeat split; assumption.
  Qed.
End Small.

Section Gathered.
  Context {C : Curve} {q vb r vs} (CL : CurveLaws C q vb r vs).
  Notation rep := (CurveTop.rep CL).
  Lemma inputs_gathered0 (P : Params C) bits : good_params P -> Forall2 (fun G xy => represents G (Some xy)) (p_generators P) (p_generators_xy P) ->
    S (S (length bits)) <= length (p_generators P) ->
    exists K1 gens K, nth_error (p_generators P) 1 = Some K1 /\ slice_from (p_generators P) 2 = Some gens /\ bit_inputs K1 gens bits = Some (K, map of_bit bits) /\
      (forall B, bits_commitment P bits B -> represents K B) /\
      (forall s, l_values s = fone :: map of_bit bits -> l_inputs s = seq 1 (length (l_values s)) -> commits_to_inputs P s K).
  Proof.
    intros HP HA HL. destruct (good_reps CL P HP) as (gs & HG). unfold slice_from. unfold bits_commitment.
    pose proof (inputs_commitment CL P) as HC. revert HC HL HG HA. destruct (p_generators P) as [|X0 [|X1 gens]]; cbn [length]; try lia. intros HC HL HG HA.
    inversion HG as [|? a ? gs0 H0 HG0]; subst. inversion HG0 as [|? b ? gs' H1 HG']; subst. inversion HA as [|? x0 ? xs0 A0 HA0]; subst. inversion HA0 as [|? x1 ? xs' A1 HA']; subst.
    destruct (bit_inputs_rep CL bits gens gs' X1 b HG' ltac:(lia) H1) as (K & EK & HK).
    exists X1, gens, K. split; [reflexivity|]. split; [reflexivity|]. split; [exact EK|]. split.
    - intros B (f & sd & gens' & E & HB). injection E as <- <- <-.
      assert (E1 : Some x1 = cl_point _ _ _ _ _ CL b). { destruct (rep_ex CL X1 _ A1) as (h' & -> & Hh'). f_equal. exact (rep_fun CL X1 _ _ Hh' H1). }
      rewrite E1 in HB. rewrite (bit_sum_rep CL _ _ _ HA' HG' bits b B ltac:(lia) HB). exact HK.
    - intros s E1 E2. exact (HC a b gs' bits K s HG ltac:(lia) HK E1 E2).
  Qed.
  Lemma honest_same0 (P : Params C) c c' t t' L : laid_out false c t -> laid_out false c' t' -> same_system t t' -> honest_leftovers P c L -> honest_leftovers P c' L.
  Proof.
    intros H1 H2 HS (HL & HF & sx & E & HC). split; [exact HL|]. split; [exact HF|]. exists sx. split; [|exact HC]. rewrite <- (sx_same CL P c c' t t' _ H1 H2 HS). exact E.
  Qed.
End Gathered.
Lemma inputs_gathered C r (HC : halo_curve C r) (P : Params C) bits : good_params P -> Forall2 (fun G xy => represents G (Some xy)) (p_generators P) (p_generators_xy P) ->
  S (S (length bits)) <= length (p_generators P) ->
  exists K1 gens K, nth_error (p_generators P) 1 = Some K1 /\ slice_from (p_generators P) 2 = Some gens /\ bit_inputs K1 gens bits = Some (K, map of_bit bits) /\
    (forall B, bits_commitment P bits B -> represents K B) /\
    (forall s, l_values s = fone :: map of_bit bits -> l_inputs s = seq 1 (length (l_values s)) -> commits_to_inputs P s K).
Proof. destruct HC; [exact (inputs_gathered0 Ec0_laws P bits)|exact (inputs_gathered0 Ec1_laws P bits)]. Qed.
Lemma honest_same C r (HC : halo_curve C r) (P : Params C) c c' t t' L : laid_out false c t -> laid_out false c' t' -> same_system t t' -> honest_leftovers P c L -> honest_leftovers P c' L.
Proof. destruct HC; [exact (honest_same0 Ec0_laws P c c' t t' L)|exact (honest_same0 Ec1_laws P c c' t t' L)]. Qed.
Lemma honest_accepted C r (HC : halo_curve C r) M (P : Params C) c t L : machine_ok M -> good_params P -> 1 <= p_n P -> laid_out false c t -> honest_leftovers P c L ->
  leftovers_verify M L P c = Done (Ok true).
Proof.
  intros HM HP Hn HT HL. destruct HC.
  - destruct (good_reps Ec0_laws P HP) as (gs & HG). exact (honest_verify Ec0_laws P HP gs HG M L c t HM Hn HT HL).
  - destruct (good_reps Ec1_laws P HP) as (gs & HG). exact (honest_verify Ec1_laws P HP gs HG M L c t HM Hn HT HL).
Qed.
Lemma lengths_top C r (HC : halo_curve C r) : (forall L : Leftovers C, length (leftovers_to_bytes L) = 144 + 16 * length (challenges_sq_packed_new L)).
Proof. destruct HC; intro L; [rewrite (leftovers_len Ec0_laws)|rewrite (leftovers_len Ec1_laws)]; lia. Qed.
Lemma dummy_smalls C r (HC : halo_curve C r) k (D : Deferred (Scalar C)) : deferred_dummy k = Some D ->
  length (d_challenges_sq_packed_old D) = k /\ length (d_challenges_sq_packed_new D) = k /\ Forall small (half_parts D).
Proof. destruct HC; [exact (dummy_small Fp_laws k D)|exact (dummy_small Fq_laws k D)]. Qed.
Lemma dummy_lefts C r (HC : halo_curve C r) M (P : Params C) L : leftovers_dummy M P = Some L -> Forall small (y_new L :: challenges_sq_packed_new L).
Proof. destruct HC; [exact (dummy_leftovers_small Ec0_laws M P L)|exact (dummy_leftovers_small Ec1_laws M P L)]. Qed.

(** What is true of every proof of a history *)
Record ripe {E1 E2 : Curve} (cy : Cycle E1 E2) (P1 : Params E1) (P2 : Params E2) (c : BothCircuits E1 E2) (len : nat) (ok : list bool -> Prop) (p : RecursiveProof E1 E2) : Prop := {
  rip_len : payload_ok len ok (rp_payload p);
  rip_h1 : honest_leftovers P1 (step_circuit cy P2 c (rp_payload p)) (rp_oldproof1 p);
  rip_h2 : honest_leftovers P2 (step_circuit (swap cy) P1 (swap_circuits c) (rp_payload p)) (rp_oldproof2 p);
  rip_s1 : Forall small (y_new (rp_oldproof1 p) :: challenges_sq_packed_new (rp_oldproof1 p));
  rip_s2 : Forall small (y_new (rp_oldproof2 p) :: challenges_sq_packed_new (rp_oldproof2 p));
  rip_d : deferred_verify (rp_deferred p) (p_k P2) = Some true;
  rip_d1 : length (d_challenges_sq_packed_old (rp_deferred p)) = p_k P2;
  rip_d2 : length (d_challenges_sq_packed_new (rp_deferred p)) = p_k P2;
  rip_d3 : Forall small (half_parts (rp_deferred p));
  rip_wf : well_formed_proof (p_k P1) (rp_proof p) (rp_oldproof1 p);
  rip_v : forall M, machine_ok M -> exists K L' D forks,
    verify_inner cy M p P1 P2 c = Done (Ok (true, D, L', rp_oldproof2 p, forks)) /\
    (forall B, bits_commitment P1 (proof_bits p) B -> represents K B) /\
    honest_leftovers P1 (step_circuit cy P2 c (rp_payload p)) L' /\ deferred_verify D (p_k P1) = Some true /\
    verified_exactly K (rp_proof p) (rp_oldproof1 p) L' D forks;
  rip_in : exists t, laid_out false (step_circuit cy P2 c (rp_payload p)) t /\ length (proof_bits p) = length (l_inputs t) - 1 /\
    length (l_lcs t) < p_d P1 /\ S (S (length (proof_bits p))) <= p_d P1 }.

Section Main.
  Context {E1 E2 : Curve} {r1 r2 : Z} (H1 : halo_curve E1 r1) (H2 : halo_curve E2 r2) (cy : Cycle E1 E2).
  Variables (P1 : Params E1) (P2 : Params E2) (c : BothCircuits E1 E2) (len : nat) (ok : list bool -> Prop).
  Hypothesis HR : ready cy P1 P2 c len ok.
  Let circuit1 := step_circuit cy P2 c.
  Let circuit2 := step_circuit (swap cy) P1 (swap_circuits c).

  Lemma rk : p_k P1 = p_k P2 /\ 2 <= p_k P2 <= 30 /\ 1 <= p_n P1 /\ 1 <= p_n P2.
  Proof.
    destruct HR as (E & [(A1 & A2 & A3 & _) _ _ _ _ (pl1 & t1 & _ & _ & F1 & _)] & [(B1 & B2 & B3 & _) _ _ _ _ (pl2 & t2 & _ & _ & F2 & _)]).
    split; [exact E|]. split; [|lia]. split; [|exact B1]. destruct (p_k P2) as [|[|k]]; [cbn in B3; lia|cbn in B3; lia|lia].
  Qed.
  Lemma gens2 : good_generators P2.
  Proof. exists (p_generators P2). destruct HR as (_ & _ & [_ X _ _ _ _]). exact X. Qed.
  Lemma gens1 : good_generators P1.
  Proof. exists (p_generators P1). destruct HR as (_ & [_ X _ _ _ _] & _). exact X. Qed.
  Lemma inner1 : uniform ok (inner_for cy (on_scalar1 c)).
  Proof. apply cast_uniform. destruct HR as (_ & X & _). apply X. Qed.
  Lemma inner2 : uniform ok (inner_for (swap cy) (on_scalar2 c)).
  Proof. apply cast_uniform. destruct HR as (_ & _ & X). apply X. Qed.
  Lemma blank1 payload : payload_ok len ok payload -> exists t, laid_out false (circuit1 payload) t /\ l_gates t < p_n P1 /\ length (l_lcs t) < p_d P1.
  Proof.
    intro HL. pose proof rk as (_ & Hk & _). pose proof HR as (_ & [_ _ _ _ _ (pl & t & HP & HT & F1 & F2)] & [_ _ HS _ _ _]).
    destruct (cast_blank H2 (cyc_base2 cy) P2 (inner_for cy (on_scalar1 c)) len ok pl payload t) as (t' & HT' & (S1 & S2 & _)); try assumption.
    - apply inner1.
    - lia.
    - apply gens2.
    - exists t'. rewrite <- S1, <- S2. auto.
  Qed.
  Lemma blank2 payload : payload_ok len ok payload -> exists t, laid_out false (circuit2 payload) t.
  Proof.
    intro HL. pose proof rk as (Ek & Hk & _). pose proof HR as (_ & [_ _ HS _ _ _] & [_ _ _ _ _ (pl & t & HP & HT & F1 & F2)]).
    destruct (cast_blank H1 (cyc_base2 (swap cy)) P1 (inner_for (swap cy) (on_scalar2 c)) len ok pl payload t) as (t' & HT' & _); try assumption.
    - apply inner2.
    - lia.
    - apply gens1.
    - exists t'. exact HT'.
  Qed.
  Lemma move1 payload payload' L : payload_ok len ok payload -> payload_ok len ok payload' -> honest_leftovers P1 (circuit1 payload) L -> honest_leftovers P1 (circuit1 payload') L.
  Proof.
    intros HL HL'. pose proof rk as (_ & Hk & _). pose proof HR as (_ & _ & [_ _ HS _ _ _]). destruct (blank1 payload HL) as (t & HT & _).
    destruct (cast_blank H2 (cyc_base2 cy) P2 (inner_for cy (on_scalar1 c)) len ok payload payload' t) as (t' & HT' & HSS); try assumption.
    - apply inner1.
    - lia.
    - apply gens2.
    - exact (honest_same E1 r1 H1 P1 _ _ t t' L HT HT' HSS).
  Qed.
  Lemma move2 payload payload' L : payload_ok len ok payload -> payload_ok len ok payload' -> honest_leftovers P2 (circuit2 payload) L -> honest_leftovers P2 (circuit2 payload') L.
  Proof.
    intros HL HL'. pose proof rk as (Ek & Hk & _). pose proof HR as (_ & [_ _ HS _ _ _] & _). destruct (blank2 payload HL) as (t & HT).
    destruct (cast_blank H1 (cyc_base2 (swap cy)) P1 (inner_for (swap cy) (on_scalar2 c)) len ok payload payload' t) as (t' & HT' & HSS); try assumption.
    - apply inner2.
    - lia.
    - apply gens1.
    - exact (honest_same E2 r2 H2 P2 _ _ t t' L HT HT' HSS).
  Qed.

  (** the proof of a circuit that is satisfied *)
  Section Prove.
    Variables (M : Machine) (fuel : nat) (vc : VerificationCircuit E2) (l2 : Leftovers E1) (l1 : Leftovers E2) (D : Deferred (Scalar E2)) (payload : list Z) (sums : list (E2 -> E2 -> E2)).
    Let prover := cast (P := fun F => Var -> CS F unit) (cyc_base2 cy) (fun one => vc_synthesize_with one (endo_chain_with one sums) vc).
    Hypotheses (HM : machine_ok M) (EP : vc_params vc = P2) (EI : vc_inner vc = inner_for cy (on_scalar1 c)) (EN : vc_new_payload vc = payload)
      (EL2 : vc_old_leftovers vc = Some (leftovers_to_bytes l2)) (EL1 : vc_new_leftovers vc = Some l1) (ED : vc_deferred vc = Some D)
      (SH : shaped vc) (HL : payload_ok len ok payload)
      (HSm : Forall (fun sum => forall c1 c2 : E2, valid c1 -> valid c2 -> valid (sum c1 c2)) sums)
      (HCm : forall w : assignment (Base E2), w (VA 1) = fone -> complete w (vc_synthesize_with (VA 1) (endo_chain_with (VA 1) sums) vc) (fun _ => True))
      (HO1 : honest_leftovers P1 (circuit1 payload) l2) (HO2 : honest_leftovers P2 (circuit2 payload) l1)
      (S2 : Forall small (y_new l2 :: challenges_sq_packed_new l2)) (S1 : Forall small (y_new l1 :: challenges_sq_packed_new l1))
      (V : deferred_verify D (p_k P2) = Some true) (V1 : length (d_challenges_sq_packed_old D) = p_k P2) (V2 : length (d_challenges_sq_packed_new D) = p_k P2)
      (V3 : Forall small (half_parts D)).
    Lemma prove_ripe_with :
      (proof_new M fuel P1 prover l2 = Running /\ exists t, reached t /\ no_challenge (C := E1) fuel t) \/
      exists pf L', proof_new M fuel P1 prover l2 = Done (Ok (pf, L')) /\ (fuel <= 256 -> ripe cy P1 P2 c len ok (mkRP pf l2 l1 D payload)).
    Proof.
      pose proof rk as (Ek & Hk & Hn1 & Hn2). pose proof HR as (_ & [HP1 HA1 _ _ _ _] & [HP2 _ HS _ _ _]).
      destruct (cast_prover H2 (cyc_base2 cy) vc ok (leftovers_to_bytes l2) l1 D sums EL2 EL1 ED SH) as (s & A1 & A2 & A3 & A4 & A5 & A6 & A7).
      { rewrite EI. apply inner1. } { rewrite EN. apply HL. } { rewrite EP. lia. } { rewrite EP. apply gens2. } { rewrite EP. exact HS. } { exact HSm. } { exact HCm. }
      rewrite EP, EI, EN in A4. destruct (blank1 payload HL) as (t & HT & F1 & F2).
      assert (HCP : can_prove P1 prover (circuit1 payload) s).
      { split; [exact A1|]. split; [exact A3|]. split; [exact A4|]. split; [exact A2|]. destruct A4 as (t' & HT' & (X1 & X2 & _)).
        assert (t' = t) as ->. { change (laid_out false (circuit1 payload) t') in HT'. unfold laid_out in HT, HT'. congruence. }
        rewrite X1, X2. split; assumption. }
      destruct (C48_complete E1 r1 H1 M M HM HM fuel P1 prover (circuit1 payload) s l2 HP1 HCP HO1) as [E|(pf & L' & E & _)]; [left; exact E|right].
      exists pf, L'. split; [exact E|]. intro Hf.
      assert (Hb : public_bits vc (leftovers_to_bytes l2) l1 D = proof_bits (mkRP pf l2 l1 D payload)) by (unfold public_bits, proof_bits; rewrite EN; reflexivity).
      rewrite Hb in A5. set (p := mkRP pf l2 l1 D payload) in *.
      destruct (inputs_gathered E1 r1 H1 P1 (proof_bits p) HP1 HA1) as (K1 & gens & K & G1 & G2 & G3 & G4 & G5).
      { destruct HP1 as (_ & X1 & _ & X2 & _). rewrite X2, <- X1. destruct HCP as (_ & _ & _ & _ & _ & X3). rewrite A5 in A7. cbn [length] in A7. rewrite map_length in A7. lia. }
      pose proof (fun M' HM' => C58_honest E1 r1 H1 M M' HM HM' fuel P1 prover (circuit1 payload) s l2 pf L' K Hf HP1 HCP HO1 E (G5 s A5 A6)) as HV.
      destruct (HV M HM) as (_ & HW & _).
      constructor; cbn [p rp_payload rp_oldproof1 rp_oldproof2 rp_deferred rp_proof]; try assumption.
      2: { destruct A4 as (t' & HT' & (X1 & X2 & X3)). exists t'. rewrite <- X2, <- X3, A6, seq_length, A5. cbn [length]. rewrite map_length.
        rewrite A5 in A7. cbn [length] in A7. rewrite map_length in A7. destruct HCP as (_ & _ & _ & _ & _ & X4). split; [exact HT'|]. lia. }
      intros M' HM'. destruct (HV M' HM') as (HL' & _ & D' & forks & W1 & W2 & W3).
      exists K, L', D', forks. split; [|split; [exact G4|split; [exact HL'|split; [exact W2|exact W3]]]].
      unfold verify_inner. cbv zeta. rewrite G1. cbn [out_opt out_bind]. rewrite G2. cbn [out_opt out_bind].
      change (bytes_bits (rp_payload p ++ leftovers_to_bytes (rp_oldproof1 p) ++ leftovers_to_bytes (rp_oldproof2 p) ++ deferred_to_bytes (rp_deferred p))) with (proof_bits p).
      rewrite G3. cbn [out_opt out_bind]. rewrite A5 in W1. cbn [tl] in W1. cbn [p rp_payload rp_oldproof1 rp_oldproof2 rp_deferred rp_proof]. unfold out_try.
      change (as_circuit cy (blank_circuit cy (on_scalar1 c) P2 payload)) with (circuit1 payload). rewrite W1. cbn [out_bind].
      destruct (blank2 payload HL) as (t2 & HT2). pose proof (honest_accepted E2 r2 H2 M' P2 (circuit2 payload) t2 l1 HM' HP2 Hn2 HT2 HO2) as W4.
      change (as_circuit (swap cy) (blank_circuit (swap cy) (on_scalar2 c) P1 payload)) with (circuit2 payload). rewrite W4. reflexivity.
    Qed.
  End Prove.

  Lemma ripe_verifies M p : machine_ok M -> ripe cy P1 P2 c len ok p -> verify cy M p P1 P2 c = Done (Ok true).
  Proof.
    intros HM [L0 A1 A2 _ _ A5 _ _ _ _ A10 _]. destruct (A10 M HM) as (K & L' & D & forks & E & _ & HL' & HD & _).
    pose proof rk as (Ek & Hk & Hn1 & Hn2). pose proof HR as (_ & [HP1 _ _ _ _ _] & [HP2 _ _ _ _ _]).
    destruct (blank1 _ L0) as (t1 & T1 & _). destruct (blank2 _ L0) as (t2 & T2).
    unfold verify. cbv zeta. unfold out_try. rewrite E. cbn [out_bind]. rewrite A5. cbn [out_opt out_bind]. rewrite HD. cbn [out_opt out_bind].
    change (as_circuit cy (blank_circuit cy (on_scalar1 c) P2 (rp_payload p))) with (circuit1 (rp_payload p)).
    change (as_circuit (swap cy) (blank_circuit (swap cy) (on_scalar2 c) P1 (rp_payload p))) with (circuit2 (rp_payload p)).
    rewrite (honest_accepted E1 r1 H1 M P1 _ t1 L' HM HP1 Hn1 T1 HL'). cbn [out_bind].
    rewrite (honest_accepted E2 r2 H2 M P2 _ t2 (rp_oldproof2 p) HM HP2 Hn2 T2 A2). reflexivity.
  Qed.

  Lemma first_ripe M fuel payload : machine_ok M -> can_start M P1 P2 c len ok payload ->
    (create_proof cy M fuel P1 P2 None c payload = Running /\ exists t, reached t /\ no_challenge (C := E1) fuel t) \/
    exists p, create_proof cy M fuel P1 P2 None c payload = Done (Ok p) /\ (fuel <= 256 -> ripe cy P1 P2 c len ok p).
  Proof.
    intros HM (HL & HAc & HRg). pose proof rk as (Ek & Hk & Hn1 & Hn2). pose proof HR as (_ & [HP1 _ _ _ HB _] & [HP2 _ HS _ _ _]).
    destruct (blank1 _ HL) as (t1 & T1 & _). destruct (blank2 _ HL) as (t2 & T2).
    destruct (C49_dummy_leftovers E1 r1 H1 M M HM HM P1 (circuit1 payload) t1 HP1 Hn1 T1) as (l2 & El2 & Hl2 & _).
    destruct (C49_dummy_leftovers E2 r2 H2 M M HM HM P2 (circuit2 payload) t2 HP2 Hn2 T2) as (l1 & El1 & Hl1 & _).
    destruct (C49_dummy_deferred E2 r2 H2 (p_k P2) (proj1 Hk)) as (D & ED & HD).
    destruct (dummy_exists E2 r2 H2 (p_k P2) (proj1 Hk)) as (OD & EOD).
    destruct (dummy_smalls E2 r2 H2 _ D ED) as (D1 & D2 & D3). destruct (HRg l2 OD El2 EOD) as (B & HBc).
    unfold create_proof. rewrite ED. cbn [out_opt out_bind]. rewrite El1. cbn [out_opt out_bind]. rewrite El2. cbn [out_opt out_bind out_try option_map].
    set (vc := mkVC _ _ _ _ _ _ _ _ _).
    assert (SH : shaped vc).
    { constructor; cbn [vc vc_proof vc_forkvalues vc_old_leftovers vc_new_leftovers vc_deferred vc_params].
      - discriminate.
      - intros fs E. injection E as <-. rewrite repeat_length. lia.
      - intros l E. injection E as <-. rewrite (lengths_top E1 r1 H1). destruct Hl2 as (-> & _). lia.
      - intros l E. injection E as <-. apply Hl1.
      - intros D0 E. injection E as <-. split; assumption. }
    assert (HCm : forall w : assignment (Base E2), w (VA 1) = fone -> complete w (vc_synthesize (VA 1) vc) (fun _ => True)).
    { intros w w1. eapply (C58_base E2 r2 H2 (VA 1) w w1 vc (leftovers_to_bytes l2) l1 D (repeat 0 (p_k P2)) OD B); try reflexivity; cbn [vc vc_params vc_inner vc_new_payload]; try assumption.
      - apply gens2.
      - lia.
      - unfold inner_for. rewrite cast_payload. exact HBc.
      - apply repeat_length.
      - apply Forall_forall. intros x Hx. apply repeat_spec in Hx. lia.
      - apply Hl1.
      - intros ob nb Ho Hn. unfold inner_for in *. rewrite cast_payload in Ho. exact (cast_accepts (cyc_base2 cy) _ _ _ HAc w (VA 1) w1 ob nb Ho Hn). }
    destruct (prove_ripe_with M fuel vc l2 l1 D payload [] HM eq_refl eq_refl eq_refl eq_refl eq_refl eq_refl SH HL (Forall_nil _) HCm Hl2 Hl1
      (dummy_lefts E1 r1 H1 M P1 l2 El2) (dummy_lefts E2 r2 H2 M P2 l1 El1) HD D1 D2 D3) as [(E & X)|(pf & L' & E & X)].
    - left. change (proof_new M fuel P1 (as_circuit cy vc) l2 = Running) in E. rewrite E. split; [reflexivity|exact X].
    - right. change (proof_new M fuel P1 (as_circuit cy vc) l2 = Done (Ok (pf, L'))) in E. rewrite E. cbn [out_bind]. eexists. split; [reflexivity|exact X].
  Qed.
  Lemma swap_cycle : swap (swap cy) = cy. Proof. destruct cy. reflexivity. Qed.
  Lemma swap_both : swap_circuits (swap_circuits c) = c. Proof. destruct c. reflexivity. Qed.

  Lemma next_ripe M fuel old payload : machine_ok M -> ripe (swap cy) P2 P1 (swap_circuits c) len ok old -> can_continue P2 c len ok old payload ->
    (create_proof cy M fuel P1 P2 (Some old) c payload = Running /\ exists t, reached t /\ no_challenge (C := E1) fuel t) \/
    exists p, create_proof cy M fuel P1 P2 (Some old) c payload = Done (Ok p) /\ (fuel <= 256 -> ripe cy P1 P2 c len ok p).
  Proof.
    intros HM [O1 O2 O3 O4 O5 O6 O7 O8 O9 O10 O11 _] (HL & HAc & (B & HBc)). rewrite swap_cycle, swap_both in O3.
    pose proof rk as (Ek & Hk & Hn1 & Hn2). pose proof HR as (_ & [HP1 _ _ _ HB _] & [HP2 _ HS _ _ _]).
    destruct (O11 M HM) as (K & L' & D & forks & E & HK & HL' & HD & HX). specialize (HK B HBc).
    destruct (verified_small K (p_k P2) _ _ L' D forks O10 (proj1 O2) O4 HX) as (X1 & X2 & X3 & X4 & X5 & X6 & X7).
    destruct (C58_verified E2 r2 H2 K (p_k P2) _ _ L' D forks O10 HX) as (Y1 & Y2).
    destruct (cast_deferred (cyc_base2 cy) (rp_deferred old) (p_k P2)) as (Z1 & Z2 & Z3 & Z4 & Z5). cbv zeta in *.
    unfold create_proof. unfold out_try at 2. rewrite E. cbn [out_bind out_try option_map].
    set (vc := mkVC _ _ _ _ _ _ _ _ _).
    assert (SH : shaped vc).
    { constructor; cbn [vc vc_proof vc_forkvalues vc_old_leftovers vc_new_leftovers vc_deferred vc_params vc_inner].
      - intros p Ep. injection Ep as <-. unfold as_old_proof. cbn [op_payload op_proof op_oldproof1 op_deferred]. unfold inner_for. rewrite cast_payload, HB, (proj1 O1), Z3, Z4, O7, O8.
        split; [reflexivity|]. split; [exact Y1|]. split; [apply O2|]. split; assumption.
      - intros fs Ef. injection Ef as <-. lia.
      - intros l El. injection El as <-. rewrite (lengths_top E1 r1 H1). destruct O3 as (-> & _). lia.
      - intros l El. injection El as <-. exact X2.
      - intros D0 E0. injection E0 as <-. split; assumption. }
    assert (HCm : forall w : assignment (Base E2), w (VA 1) = fone -> complete w (vc_synthesize (VA 1) vc) (fun _ => True)).
    { intros w w1. eapply (C58_step E2 r2 H2 (VA 1) w w1 vc (as_old_proof cy old) (leftovers_to_bytes (rp_oldproof2 old)) L' D forks K B); try reflexivity;
        cbn [vc vc_params vc_inner vc_new_payload as_old_proof op_payload op_proof op_oldproof1 op_deferred]; try assumption.
      - apply gens2.
      - lia.
      - rewrite Z1. unfold proof_bits in HBc. rewrite !flat_map_app in HBc. exact HBc.
      - apply O2.
      - congruence.
      - congruence.
      - apply Z5, O9.
      - rewrite Z2, <- Ek. exact O6.
      - intros ob nb Ho Hn. exact (cast_accepts (cyc_base2 cy) _ _ _ HAc w (VA 1) w1 ob nb Ho Hn). }
    destruct (prove_ripe_with M fuel vc (rp_oldproof2 old) L' D payload [] HM eq_refl eq_refl eq_refl eq_refl eq_refl eq_refl SH HL (Forall_nil _) HCm) as [(E' & X)|(pf & L'' & E' & X)]; try assumption.
    - exact (move1 _ _ _ O1 HL O3).
    - exact (move2 _ _ _ O1 HL HL').
    - left. change (proof_new M fuel P1 (as_circuit cy vc) (rp_oldproof2 old) = Running) in E'. rewrite E'. split; [reflexivity|exact X].
    - right. change (proof_new M fuel P1 (as_circuit cy vc) (rp_oldproof2 old) = Done (Ok (pf, L''))) in E'. rewrite E'. cbn [out_bind]. eexists. split; [reflexivity|exact X].
  Qed.
End Main.
Lemma ready_swap {E1 E2 : Curve} (cy : Cycle E1 E2) P1 P2 c len ok : ready cy P1 P2 c len ok -> ready (swap cy) P2 P1 (swap_circuits c) len ok.
Proof. intros (E & A & B). split; [congruence|]. split; [exact B|]. destruct cy, c. exact A. Qed.

Theorem history_ripe len ok E1 E2 (cy : Cycle E1 E2) P1 P2 c p : history len ok E1 E2 cy P1 P2 c p ->
  forall r1 r2, halo_curve E1 r1 -> halo_curve E2 r2 -> ready cy P1 P2 c len ok -> ripe cy P1 P2 c len ok p.
Proof.
  induction 1 as [E1 E2 cy P1 P2 c M fuel payload p HM Hf HS E|E1 E2 cy P1 P2 c M fuel old payload p HM Hf HH IH HS E]; intros r1 r2 H1 H2 HR.
  - destruct (first_ripe H1 H2 cy P1 P2 c len ok HR M fuel payload HM HS) as [(X & _)|(p' & X & Y)]; [congruence|]. assert (p' = p) as -> by congruence. exact (Y Hf).
  - specialize (IH r2 r1 H2 H1 (ready_swap cy P1 P2 c len ok HR)).
    destruct (next_ripe H1 H2 cy P1 P2 c len ok HR M fuel old payload HM IH HS) as [(X & _)|(p' & X & Y)]; [congruence|]. assert (p' = p) as -> by congruence. exact (Y Hf).
Qed.
