(** The statements of Properties/ProverProps.v. *)
From Coq Require Import ZArith List Bool Arith Lia Ring Field.
From Verif Require Import Lib.AbGroup Lib.Abel Model.FieldTrait Model.FieldInst Model.Circuits Model.Curve Model.Threads Model.Util Model.Rescue Model.Params Model.Opening Model.Proofs
  Spec.FieldSpec Spec.FieldLaws Spec.CurveSpec Spec.CurveLaws Spec.UtilSpec Spec.SystemSpec Spec.ProofSpec Spec.VerifySpec
  Proofs.FieldGen Proofs.ZtoF Proofs.SumP Proofs.FftP Proofs.PolyMulP Proofs.SystemP Proofs.FpFq Proofs.CurveInst Proofs.CurveTop Proofs.MultiexpP Proofs.FoldP Proofs.ChallengeP Proofs.ParamsP
  Proofs.UtilTop Proofs.IdentityP Proofs.DeferredP Proofs.OpeningP Proofs.OpeningTop Proofs.ProverLemmas Proofs.ProverP.
Import ListNotations.
Open Scope nat_scope.
Open Scope list_scope.
Notation represents := CurveSpec.represents.

(** *** The magic challenge has a square root *)
Section Magic.
  Context {F : Field} {p v} (FL : FieldLaws F p v).
  Let OL := fl_ops _ _ _ FL.
  Add Field Ff : (ffield OL).
  Lemma magic_value : v (@get_challenge_scalar F F (f_from_u64 MAGIC)) = ((4611686018427387903 + 23058430092136939520 * v f_BETA) mod p)%Z.
  Proof.
    rewrite (challenge_emb FL FL). rewrite (fl_from_u64 _ _ _ FL) by (unfold MAGIC; lia).
    change (erun MAGIC) with (4611686018427387903, 23058430092136939520)%Z.
    unfold emb. cbn [fst snd]. rewrite (ol_add _ _ _ OL), (ol_mul _ _ _ OL), !(v_fz OL).
    pose proof (ol_odd _ _ _ OL). rewrite Zmult_mod_idemp_l, <- Zplus_mod. reflexivity.
  Qed.
  Definition magic_root (c : F) : Prop := f_sqrt (@get_challenge_scalar F F (f_from_u64 MAGIC)) = Some c.
  Lemma magic_sqrt R : ((R * R) mod p = (4611686018427387903 + 23058430092136939520 * v f_BETA) mod p)%Z -> exists c, magic_root c.
  Proof.
    intro H. unfold magic_root. destruct (f_sqrt _) as [c|] eqn:E; [exists c; reflexivity|].
    exfalso. apply (fl_sqrt_none _ _ _ FL _ E R). rewrite magic_value. exact H.
  Qed.
End Magic.
Lemma magic_fp : exists c : Fp, magic_root c.
Proof.
  apply (magic_sqrt Fp_laws 10507042298835875209359860008709966058759983217865751431248756649280735204070).
  rewrite fp_beta_val. vm_compute. reflexivity.
Qed.
Lemma magic_fq : exists c : Fq, magic_root c.
Proof.
  apply (magic_sqrt Fq_laws 25429100708490257883122176710174056263707015591911539330841888851340146777078).
  rewrite fq_beta_val. vm_compute. reflexivity.
Qed.

Section Top.
  Context {C : Curve} {q vb r vs} (CL : CurveLaws C q vb r vs).
  Notation F := (Scalar C).
  Notation rep := (rep CL).
  Notation zsum := (zsum CL).
  Notation G := (cl_group _ _ _ _ _ CL).
  Notation gcoeffs := compute_g_coeffs_for_inner_product.
  Let SL := cl_scalar _ _ _ _ _ CL.
  Let SO := fl_ops _ _ _ SL.
  Add Field Fs : (ffield SO).

  Section Good.
    Variable (P : Params C).
    Hypothesis (HP : good_params P).
    Notation k := (p_k P).
    Variable (gs : list G).
    Hypothesis (HG : Forall2 rep (p_generators P) gs).

    Lemma g_len : length gs = 2 ^ k.
    Proof. destruct HP as (_ & _ & _ & E & _). rewrite <- E. symmetry. exact (Forall2_len _ _ _ HG). Qed.
    Lemma g32 : (Z.of_nat (length (p_generators P)) < 2 ^ 32)%Z.
    Proof.
      destruct HP as (Hk & _ & _ & E & _). rewrite E, Nat2Z.inj_pow. change (Z.of_nat 2) with 2%Z.
      apply Z.le_lt_trans with (2 ^ 30)%Z; [apply Z.pow_le_mono_r; lia|reflexivity].
    Qed.
    Lemma folds_iff packed g : length packed = k -> (folds_to (p_generators P) packed g <->
      exists cs cis, rooted packed cs /\ inverses cs cis /\ rep g (zsum (map vs (gcoeffs (map fsquare cs) (prod_ cis))) gs)).
    Proof.
      intro HL. assert (HF : forall cs cis, rooted packed cs -> inverses cs cis -> Forall2 rep (fold_vector fold_point (combine cs cis) (p_generators P))
        [zsum (map vs (gcoeffs (map fsquare cs) (prod_ cis))) gs]).
      { intros cs cis H1 H2. pose proof (fold_rep CL (combine cs cis) _ _ HG) as HR.
        rewrite (gfold_coeffs CL cs cis gs (Forall2_len _ _ _ H2) H2) in HR; [exact HR|]. rewrite <- (Forall2_len _ _ _ H1), HL. exact g_len. }
      split.
      - intros (cs & cis & g' & H1 & H2 & H3 & A & R1 & R2). exists cs, cis. split; [exact H1|]. split; [exact H2|].
        specialize (HF cs cis H1 H2). rewrite H3 in HF. inversion HF as [|? ? ? ? R3 _]; subst.
        rewrite (represents_fun CL _ _ _ R2 R3) in R1. exact R1.
      - intros (cs & cis & H1 & H2 & R1). specialize (HF cs cis H1 H2). remember (fold_vector fold_point (combine cs cis) (p_generators P)) as l eqn:El.
        inversion HF as [|g' ? ? ? R3 R4]; subst. inversion R4; subst. exists cs, cis, g'. split; [exact H1|]. split; [exact H2|]. split; [symmetry; assumption|].
        eexists. split; [exact R1|exact R3].
    Qed.
    Lemma lcom_iff v D : commitment_to (p_generators P) false v D <-> lcom CL k gs v D.
    Proof.
      destruct HP as (_ & _ & _ & E & _). split.
      - intro H. apply (commitment_rep CL _ _ _ _ _ HG) in H. rewrite E in H. exact H.
      - intro H. apply (commitment_rep CL _ _ _ _ _ HG). rewrite E. exact H.
    Qed.
    Lemma honest_iff circuit L : honest_leftovers P circuit L <-> LOK CL P k gs circuit L.
    Proof.
      split.
      - intros (H1 & H2 & sx & H3 & H4). apply (folds_iff _ _ H1) in H2. destruct H2 as (cs & cis & A1 & A2 & A3).
        exists cs, cis, sx. split; [exact A1|]. split; [exact A2|]. split; [exact H1|]. split; [exact A3|]. split; [exact H3|]. apply lcom_iff, H4.
      - intros (cs & cis & sx & A1 & A2 & H1 & A3 & H3 & H4). split; [exact H1|]. split; [|exists sx; split; [exact H3|apply lcom_iff, H4]].
        apply (folds_iff _ _ H1). exists cs, cis. split; [exact A1|]. split; [exact A2|exact A3].
    Qed.
    (** a commitment depends only on the coefficients *)
    Lemma zsum_pad (v : list F) n (hs : list G) : zsum (map vs (v ++ repeat fzero n)) hs = zsum (map vs v) hs.
    Proof.
      revert hs. induction v as [|a v IH]; intros hs; cbn [app map]; [exact (OpeningP.zsum_zero CL n hs)|]. destruct hs as [|h hs]; [reflexivity|].
      cbn [MultiexpP.zsum]. rewrite IH. reflexivity.
    Qed.
    Lemma zsum_first (l : list Z) (hs : list G) : zsum l (firstn (length l) hs) = zsum l hs.
    Proof. revert hs. induction l as [|a l IH]; intros [|h hs]; try reflexivity. cbn [length firstn MultiexpP.zsum]. rewrite IH. reflexivity. Qed.
    Lemma zsum_coeff (v w : list F) hs : (forall j, coeff v j = coeff w j) -> zsum (map vs v) hs = zsum (map vs w) hs.
    Proof.
      intro H. rewrite <- (zsum_pad v (length w)), <- (zsum_pad w (length v)). do 2 f_equal.
      apply list_coeff; [rewrite !app_length, !repeat_length; lia|]. intro j.
      assert (X : forall (l : list F) n, coeff (l ++ repeat fzero n) j = coeff l j).
      { intros l n. unfold coeff. destruct (Nat.lt_ge_cases j (length l)) as [Hj|Hj]; [apply app_nth1, Hj|].
        rewrite app_nth2, (nth_overflow l) by lia. apply nth_repeat. }
      rewrite !X. apply H.
    Qed.

    (** *** Leftovers::verify *)
    Lemma fold_prod (l : list F) : forall a, fold_left (fun allinv c => fmul allinv c) l a = fmul a (prod_ l).
    Proof.
      induction l as [|c l IH]; intro a; cbn [fold_left]; [cbn; ring|]. rewrite IH. unfold prod_. cbn [fold_right]. ring.
    Qed.
    Lemma roots_cases (packed : list F) : (exists cs, rooted packed cs) \/ (root_challenges (unpack_challenges packed) = None /\ exists pk, In pk packed /\ f_sqrt (@get_challenge_scalar F F pk) = None).
    Proof.
      induction packed as [|pk packed IH]; [left; exists []; constructor|].
      destruct (f_sqrt (@get_challenge_scalar F F pk)) as [c|] eqn:E.
      - destruct IH as [(cs & H)|(H & pk' & Hi & Hp)].
        + left. exists (c :: cs). constructor; assumption.
        + right. split; [|exists pk'; split; [right; exact Hi|exact Hp]]. revert H. unfold root_challenges, unpack_challenges, all_some. cbn [map fold_right]. rewrite E.
          intros ->. reflexivity.
      - right. split; [|exists pk; split; [left; reflexivity|exact E]]. unfold root_challenges, unpack_challenges, all_some. cbn [map fold_right]. rewrite E. reflexivity.
    Qed.
    Lemma rooted_fun (packed cs cs' : list F) : rooted packed cs -> rooted packed cs' -> cs = cs'.
    Proof.
      unfold rooted. intro H. revert cs'. induction H as [|pk c packed cs H _ IH]; intros cs' H'; inversion H' as [|? c' ? cs2 H1 H2]; subst; [reflexivity|].
      f_equal; [congruence|apply IH, H2].
    Qed.
    Lemma g_compute M (packed cs cis : list F) : machine_ok M -> rooted packed cs -> inverses cs cis -> length packed = k ->
      exists g, compute_g_for_inner_product M (p_generators P) (unpack_challenges packed) (prod_ cis) = Some g /\
        rep g (zsum (map vs (gcoeffs (map fsquare cs) (prod_ cis))) gs).
    Proof.
      intros HM H1 H2 HL. rewrite (rooted_sq SL _ _ H1). unfold compute_g_for_inner_product.
      apply (multiexp_rep CL M (gcoeffs (map fsquare cs) (prod_ cis)) (p_generators P) gs HM); [|exact g32|exact HG].
      rewrite coeffs_length, map_length, <- (Forall2_len _ _ _ H1), HL. symmetry. destruct HP as (_ & _ & _ & E & _). exact E.
    Qed.
    Lemma eqb_iff (D E : C) : valid D -> valid E -> (c_eqb D E = true <-> represents D infinity \/ same_point D E).
    Proof.
      intros (A & HA) (B & HB). split.
      - intro H. apply (cl_eqb _ _ _ _ _ CL _ _ _ _ HA HB) in H. destruct H as [->| ->]; [left; exact HA|right; exists B; split; assumption].
      - intros H. apply (cl_eqb _ _ _ _ _ CL _ _ _ _ HA HB). destruct H as [H|(A' & H1 & H2)]; [left; exact (represents_fun CL _ _ _ HA H)|right].
        rewrite (represents_fun CL _ _ _ HA H1). symmetry. exact (represents_fun CL _ _ _ HB H2).
    Qed.
    Lemma n3 : p_n P >= 1 -> 3 * p_n P + 1 <= 2 ^ k. Proof. destruct HP as (_ & _ & E & _). lia. Qed.

    Theorem leftovers_char M L circuit t : machine_ok M -> p_n P >= 1 -> laid_out false circuit t -> valid (s_new_commitment L) -> valid (g_new L) ->
      let packed := challenges_sq_packed_new L in
      (length packed <> k -> leftovers_verify M L P circuit = Panicked) /\
      (forall pk, In pk packed -> f_sqrt (@get_challenge_scalar F F pk) = None -> leftovers_verify M L P circuit = Panicked) /\
      (length packed = k -> Forall (fun pk => f_sqrt (@get_challenge_scalar F F pk) <> None) packed ->
        exists g sx D b, folds_to (p_generators P) packed g /\ compute_sx P circuit (y_new L) = Done (Ok sx) /\ commitment_to (p_generators P) false sx D /\
          leftovers_verify M L P circuit = Done (Ok b) /\
          (b = true <-> (represents g infinity \/ same_point g (g_new L)) /\ (represents D infinity \/ same_point D (s_new_commitment L)))).
    Proof.
      intros HM Hn1 HT V1 V2 packed.
      destruct (compute_sx_eq CL P circuit t (y_new L) HT) as (u & w & z & Esx & _). pose proof (sx_vec_length (p_n P) u w z) as Lsx.
      set (sx := sx_vec (p_n P) u w z) in *. clearbody sx.
      destruct HP as (Hk & _ & Hn4 & Egl & HVg).
      destruct (commit_rep CL M P gs sx false HM HG g32) as (D & ED & HD); [rewrite Egl; lia|].
      unfold leftovers_verify. rewrite Esx. cbn [out_try out_bind]. rewrite ED. cbn [out_opt out_bind]. fold packed.
      split; [|split].
      - intro H. rewrite (proj2 (Nat.eqb_neq _ _) H). reflexivity.
      - intros pk Hi Hp. destruct (length packed =? k); [|reflexivity]. cbn [out_assert out_bind].
        destruct (roots_cases packed) as [(cs & H)|(-> & _)]; [|reflexivity]. exfalso. clear - H Hi Hp.
        unfold rooted in H. induction H as [|pk' c packed cs H _ IH]; [destruct Hi|]. destruct Hi as [->|Hi]; [congruence|exact (IH Hi)].
      - intros HL HR. rewrite (proj2 (Nat.eqb_eq _ _) HL). cbn [out_assert out_bind].
        destruct (roots_cases packed) as [(cs & H)|(_ & pk & Hi & Hp)]; [|destruct (proj1 (Forall_forall _ _) HR pk Hi Hp)].
        destruct (rooted_inv SL _ _ H) as (cis & Hc). rewrite (rooted_eq _ _ H). cbn [out_opt out_bind].
        rewrite fold_prod. assert (EI : fmul (fmul fone (prod_ cs)) (prod_ cis) = fone). { transitivity (fmul (prod_ cs) (prod_ cis)); [ring|exact (inverses_prod SL _ _ Hc)]. }
        rewrite (finvert_eq SL _ _ EI). cbn [out_opt out_bind].
        destruct (g_compute M packed cs cis HM H Hc HL) as (g & Eg & Hg). rewrite Eg. cbn [out_opt out_bind].
        exists g, sx, D. eexists. split; [apply (folds_iff _ _ HL); exists cs, cis; split; [exact H|split; [exact Hc|exact Hg]]|]. split; [reflexivity|].
        split; [apply lcom_iff; split; [lia|exact HD]|]. split; [reflexivity|].
        rewrite andb_true_iff. rewrite eqb_iff by (first [exact V2 | exists (cl_point _ _ _ _ _ CL (zsum (map vs (gcoeffs (map fsquare cs) (prod_ cis))) gs)); exact Hg]).
        rewrite eqb_iff by (first [exact V1 | eexists; exact HD]). reflexivity.
    Qed.
    Theorem honest_verify M L circuit t : machine_ok M -> p_n P >= 1 -> laid_out false circuit t -> honest_leftovers P circuit L -> leftovers_verify M L P circuit = Done (Ok true).
    Proof.
      intros HM Hn1 HT HL. apply honest_iff in HL. destruct HL as (cs & cis & sx & H1 & H2 & H3 & H4 & H5 & H6).
      assert (V1 : valid (s_new_commitment L)) by (eexists; exact (proj2 H6)). assert (V2 : valid (g_new L)) by (eexists; exact H4).
      destruct (leftovers_char M L circuit t HM Hn1 HT V1 V2) as (_ & _ & H). destruct (H H3) as (g & sx' & D & b & F1 & F2 & F3 & -> & F5).
      - clear - H1. unfold rooted in H1. induction H1; constructor; [congruence|assumption].
      - do 2 f_equal. apply F5. split; right.
        + apply (folds_iff _ _ H3) in F1. destruct F1 as (cs' & cis' & A1 & A2 & A3). rewrite (rooted_fun _ _ _ A1 H1) in *.
          eexists. split; [exact A3|]. replace (prod_ cis') with (prod_ cis); [exact H4|].
          apply (f_equal (fun x => x)). pose proof (inverses_prod SL _ _ A2). pose proof (inverses_prod SL _ _ H2).
          transitivity (fmul (prod_ cis) (fmul (prod_ cs) (prod_ cis'))); [rewrite H0; ring|]. transitivity (fmul (fmul (prod_ cs) (prod_ cis)) (prod_ cis')); [ring|]. rewrite H7. ring.
        + assert (sx' = sx) as -> by congruence. apply lcom_iff in F3. eexists. split; [exact (proj2 F3)|exact (proj2 H6)].
    Qed.
  End Good.

  Lemma good_reps P : good_params P -> exists gs, Forall2 rep (p_generators P) gs.
  Proof. intros (_ & _ & _ & _ & H). exact (valid_reps CL _ H). Qed.

  Theorem complete_strict M M' fuel (P : Params C) prover verifier s L : machine_ok M -> machine_ok M' -> good_params P -> can_prove P prover verifier s -> honest_leftovers P verifier L ->
    (proof_new M fuel P prover L = Running /\ exists t, reached t /\ no_challenge (C := C) fuel t) \/
    exists pf L', proof_new M fuel P prover L = Done (Ok (pf, L')) /\ honest_leftovers P verifier L' /\ well_formed_proof (p_k P) pf L /\
      (fuel <= 256 -> forall K, match K with None => True | Some K => commits_to_inputs P s K end ->
         exists D forks, proof_verify M' pf L P verifier (tl (l_values s)) K = Done (Ok (true, L', D, forks)) /\ deferred_verify D (p_k P) = Some true /\
           match K with Some K => strictly pf L K (d_ky_opening D) (d_gx_old_opening D) | None => True end).
  Proof.
    intros HM HM' HP (H1 & (t & H2 & H3) & (t' & H4 & H5) & H6 & H7 & H8) HL.
    destruct (good_reps P HP) as (gs & HG). pose proof HP as (Pk & Pd & Pn & Pg & _). apply (honest_iff P HP gs HG) in HL.
    destruct (prover_complete CL P (p_k P) gs eq_refl Pd Pn Pg HG Pk prover verifier s t t' H1 H2 H4 H3 H5 H6 H7 H8 M M' fuel L HM HM' HL)
      as [E|(pf & L' & E & HL' & HW & HV)]; [left; exact E|right].
    exists pf, L'. split; [exact E|]. split; [apply (honest_iff P HP gs HG), HL'|]. split; [exact HW|]. intros Hf K HK.
    apply (HV Hf K). intros ky Eky. destruct K as [K|]; [|exact I]. unfold ky_com. destruct HK as (w & W1 & W2). apply (lcom_iff P HP gs HG) in W1.
    destruct (laid_out_ok _ _ _ H1) as (OK & _ & _).
    destruct (ky_ok SL s OK) as (ky' & E1 & E2 & _). assert (ky' = ky) as -> by congruence.
    assert (HC : forall j, coeff ky j = coeff w j).
    { intro j. rewrite W2. apply (ky_coeff s OK ky Eky). }
    split; [lia|]. destruct W1 as [W1 W3]. rewrite <- (map_length vs) in *. rewrite zsum_first in *. rewrite (zsum_coeff _ _ gs HC). exact W3.
  Qed.

  Theorem complete_top M M' fuel (P : Params C) prover verifier s L : machine_ok M -> machine_ok M' -> good_params P -> can_prove P prover verifier s -> honest_leftovers P verifier L ->
    (proof_new M fuel P prover L = Running /\ exists t, reached t /\ no_challenge (C := C) fuel t) \/
    exists pf L', proof_new M fuel P prover L = Done (Ok (pf, L')) /\ honest_leftovers P verifier L' /\
      (fuel <= 256 -> forall K, match K with None => True | Some K => commits_to_inputs P s K end ->
         exists D forks, proof_verify M' pf L P verifier (tl (l_values s)) K = Done (Ok (true, L', D, forks)) /\ deferred_verify D (p_k P) = Some true).
  Proof.
    intros HM HM' HP HC HL. destruct (complete_strict M M' fuel P prover verifier s L HM HM' HP HC HL) as [E|(pf & L' & E & HL' & _ & HV)]; [left; exact E|right].
    exists pf, L'. split; [exact E|]. split; [exact HL'|]. intros Hf K HK. destruct (HV Hf K HK) as (D & forks & E1 & E2 & _). exists D, forks. split; assumption.
  Qed.

  (** *** proofs in a row *)
  Theorem row_top M M' fuel (P : Params C) verifier steps : machine_ok M -> machine_ok M' -> good_params P -> fuel <= 256 -> forall L,
    honest_leftovers P verifier L -> proofs_in_a_row M fuel P L steps ->
    Forall (fun '(prover, _, _, _) => exists s, can_prove P prover verifier s) steps ->
    Forall (fun '(prover, L, pf, L') => leftovers_verify M' L P verifier = Done (Ok true) /\ leftovers_verify M' L' P verifier = Done (Ok true) /\
      forall s, can_prove P prover verifier s -> exists D forks, proof_verify M' pf L P verifier (tl (l_values s)) None = Done (Ok (true, L', D, forks)) /\
        deferred_verify D (p_k P) = Some true) steps.
  Proof.
    intros HM HM' HP Hf. destruct (good_reps P HP) as (gs & HG). induction steps as [|[[[prover L1] pf] L'] steps IH]; intros L HL HR HS; [constructor|].
    inversion HR as [|? ? ? ? ? E HR']; subst. inversion HS as [|? ? Hs0 HS']; subst. cbv beta iota in Hs0. destruct Hs0 as (s & Hs).
    assert (HC : forall s, can_prove P prover verifier s -> honest_leftovers P verifier L' /\ exists D forks, proof_verify M' pf L1 P verifier (tl (l_values s)) None = Done (Ok (true, L', D, forks)) /\
        deferred_verify D (p_k P) = Some true).
    { intros s' Hs'. destruct (complete_top M M' fuel P prover verifier s' L1 HM HM' HP Hs' HL) as [[X _]|(pf' & L2 & E' & HL' & HV)]; [congruence|].
      assert (pf' = pf /\ L2 = L') as [-> ->] by (split; congruence). split; [exact HL'|exact (HV Hf None I)]. }
    destruct (HC s Hs) as [HL' _]. constructor; [|exact (IH L' HL' HR' HS')].
    destruct Hs as (_ & _ & (t' & Ht' & _) & _ & Hn & _). assert (Hn1 : p_n P >= 1) by lia.
    split; [exact (honest_verify P HP gs HG M' L1 verifier t' HM' Hn1 Ht' HL)|]. split; [exact (honest_verify P HP gs HG M' L' verifier t' HM' Hn1 Ht' HL')|].
    intros s' Hs'. exact (proj2 (HC s' Hs')).
  Qed.

  (** *** the dummies *)
  Lemma firstn_In {A} (x : A) n l : In x (firstn n l) -> In x l.
  Proof. intro H. rewrite <- (firstn_skipn n l). apply in_or_app. left. exact H. Qed.
  Lemma sx_zero (P : Params C) circuit t : laid_out false circuit t -> exists sx, compute_sx P circuit fzero = Done (Ok sx) /\ length sx = 3 * p_n P + 1 /\ Forall (eq fzero) sx.
  Proof.
    intro HT. destruct (compute_sx_eq CL P circuit t fzero HT) as (u & w & z & E & Lu & Lw & Lz & HS).
    exists (sx_vec (p_n P) u w z). split; [exact E|]. split; [apply sx_vec_length|].
    assert (HZ : forall f, s_sum (l_lcs t) fzero f = fzero).
    { intro f. unfold s_sum, sum_q. apply (fsum_zero SO). intros i _. cbn [fpow]. ring. }
    destruct (total_inj SL u w z (repeat fzero (length u)) (repeat fzero (length w)) (repeat fzero (length z))) as (-> & -> & ->); rewrite ?repeat_length; auto.
    { intro f. rewrite HS, HZ. unfold total. rewrite !(lin_repeat SO). ring. }
    assert (HR : forall m n, Forall (eq (@fzero F)) (resize (repeat fzero m) n)).
    { intros m n. unfold resize. apply Forall_app. split; [apply Forall_forall; intros x Hx; apply firstn_In in Hx|apply Forall_forall; intros x Hx]; symmetry; eapply repeat_spec; exact Hx. }
    unfold sx_vec. apply Forall_app. split; [apply Forall_rev, HR|]. constructor; [reflexivity|]. apply Forall_app. split; apply HR.
  Qed.
  Lemma zsum_zeros (l : list F) : Forall (eq fzero) l -> forall hs, zsum (map vs l) hs = g0.
  Proof.
    induction 1 as [|x l E _ IH]; intros [|h hs]; try reflexivity. cbn [map MultiexpP.zsum]. rewrite IH, <- E, (ol_zero _ _ _ SO). abel.
  Qed.
  Lemma rooted_repeat (pk c : F) n : f_sqrt (@get_challenge_scalar F F pk) = Some c -> rooted (repeat pk n) (repeat c n).
  Proof. intro H. unfold rooted. induction n; constructor; assumption. Qed.

  Theorem dummy_top M (P : Params C) circuit t : (exists c : F, magic_root c) -> machine_ok M -> good_params P -> p_n P >= 1 -> laid_out false circuit t ->
    exists L, leftovers_dummy M P = Some L /\ honest_leftovers P circuit L.
  Proof.
    intros (c & Hc) HM HP Hn1 HT. destruct (good_reps P HP) as (gs & HG).
    pose proof (rooted_repeat _ _ (p_k P) Hc) as HR. destruct (rooted_inv SL _ _ HR) as (cis & Hi).
    assert (HL : length (repeat (f_from_u64 MAGIC : F) (p_k P)) = p_k P) by apply repeat_length.
    destruct (g_compute P HP gs HG M _ _ _ HM HR Hi HL) as (g & Eg & Hg).
    unfold leftovers_dummy. rewrite (rooted_eq _ _ HR). cbn [obind]. rewrite (invert_all_eq SL _ _ Hi). cbn [obind]. rewrite Eg. cbn [obind].
    eexists. split; [reflexivity|]. apply (honest_iff P HP gs HG).
    destruct (sx_zero P circuit t HT) as (sx & E1 & E2 & E3).
    exists (repeat c (p_k P)), cis, sx. cbn [challenges_sq_packed_new g_new y_new s_new_commitment].
    split; [exact HR|]. split; [exact Hi|]. split; [exact HL|]. split; [exact Hg|]. split; [exact E1|].
    destruct HP as (_ & _ & H4 & _). split; [lia|]. rewrite zsum_zeros by exact E3. apply rep0.
  Qed.
  Lemma dummy_zero (a b c d e : F) : fsub (fmul a (fmul fzero b)) (fmul fzero c) = fadd (fmul fzero d) (fmul fzero e).
  Proof. ring. Qed.
  Theorem deferred_dummy_top k : (exists c : F, magic_root c) -> 2 <= k -> exists D : Deferred F, deferred_dummy k = Some D /\ deferred_verify D k = Some true.
  Proof.
    intros (c & Hc) Hk. pose proof (rooted_repeat _ _ k Hc) as HR. destruct (rooted_inv SL _ _ HR) as (cis & Hi).
    assert (Hne : repeat c k <> []) by (destruct k; [lia|discriminate]).
    unfold deferred_dummy. rewrite (rooted_eq _ _ HR). cbn [obind]. rewrite (invert_all_eq SL _ _ Hi). cbn [obind].
    rewrite (coeffs_b SL fone _ _ Hne Hi). cbn [obind]. eexists. split; [reflexivity|].
    assert (E1 : f_invert (fone : F) = Some fone) by (apply (finvert_eq SL); ring).
    assert (E0 : feqb (fone : F) fzero = false). { destruct (feqb (fone : F) fzero) eqn:X; [|reflexivity]. apply (feqb_eq SO) in X. destruct (fone_neq_zero SO X). }
    unfold deferred_verify, deferred_compute.
    cbn [d_challenges_sq_packed_old d_challenges_sq_packed_new d_x d_y_cur d_y_old d_y_new d_gx_old_opening d_b_x d_b_xy d_b_y_old d_b_y_cur d_b_y_new d_ky_opening d_tx_positive_opening d_tx_negative_opening d_sx_cur_opening d_rx_opening d_rxy_opening].
    rewrite !E0, E1. cbn [obind].
    assert (Hd : 1 <= 2 ^ k / 4). { destruct k as [|[|k']]; [lia|lia|]. cbn [Nat.pow]. replace (2 * (2 * 2 ^ k')) with (2 ^ k' * 4) by lia. rewrite Nat.div_mul by lia. pose proof (Nat.pow_nonzero 2 k'). lia. }
    unfold usize_sub. rewrite (proj2 (Nat.leb_le 1 (3 * (2 ^ k / 4)))), (proj2 (Nat.leb_le 2 k)) by lia. cbn [obind].
    rewrite (rooted_eq _ _ HR). cbn [obind]. rewrite (invert_all_eq SL _ _ Hi). cbn [obind].
    rewrite !(coeffs_b SL _ _ _ Hne Hi). cbn [obind].
    assert (E11 : fmul (fone : F) fone = fone) by ring. rewrite E11. rewrite !(feqb_refl SO), !andb_true_r. f_equal. apply (feqb_eq SO).
    apply dummy_zero.
  Qed.
End Top.
