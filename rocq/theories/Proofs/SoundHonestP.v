(** Provers of the whole proof system that can be rewound: for every satisfied system
    there is one that meets the hypotheses of the extraction (property C72). *)
From Coq Require Import ZArith List Bool Arith Lia Ring Field.
From Verif Require Import Lib.AbGroup Lib.Abel Model.FieldTrait Model.Circuits Model.Curve Model.Util Model.Params Model.Opening Model.Proofs
  Spec.FieldLaws Spec.CircuitSpec Spec.CurveSpec Spec.CurveLaws Spec.UtilSpec Spec.SystemSpec Spec.ProofSpec Spec.VerifySpec Spec.RecursiveCircuitSpec Spec.ExtractSpec Spec.SoundnessSpec
  Proofs.FieldGen Proofs.SumP Proofs.PolyMulP Proofs.ParamsP Proofs.CurveTop Proofs.MultiexpP Proofs.FoldP Proofs.UtilTop Proofs.IdentityP Proofs.SystemP Proofs.OpeningP Proofs.ProverLemmas Proofs.OpeningTop Proofs.VerifyP Proofs.DeferredTop Proofs.ProverTop
  Proofs.ExtractP Proofs.ExtractHonestP Proofs.SoundAlgebraP Proofs.SoundLinearP Proofs.SoundP Proofs.SoundTopP.
Import ListNotations.
Open Scope nat_scope.
Open Scope list_scope.

(** *** The equation between the openings of an honest prover *)
Section Equation.
  Context {F : Field} {p v} (FL : FieldLaws F p v).
  Let OL := fl_ops _ _ _ FL.
  Add Field Ff : (ffield OL).
  Infix "[+]" := fadd (at level 50, left associativity).
  Infix "[-]" := fsub (at level 50, left associativity).
  Infix "[*]" := fmul (at level 40, left associativity).
  Definition t_pos (n : nat) (V B : list F) : list F := map (fun i => product_coeff V B (6 * n - 1 + i)) (seq 0 (4 * n)).
  Definition t_neg (n : nat) (V B : list F) : list F := map (fun i => product_coeff V B (2 * n - 2 + i)) (seq 0 (4 * n)).
  Lemma bracket_low n (V sx : list F) y yi i : 1 <= n -> length V = 4 * n -> length sx = 3 * n + 1 -> (forall j, j < n - 1 -> coeff V j = fzero) -> i < n - 1 ->
    coeff (bracket n V sx y yi) i = fzero.
  Proof.
    intros Hn HV HS HZ Hi. destruct (bracket_lengths n V sx y yi Hn HV HS) as (L1 & L2 & L3 & _).
    assert (AN : forall (l m : list F), i < length l -> coeff (l ++ m) i = coeff l i) by (intros l m Hl; apply app_nth1, Hl).
    unfold bracket. rewrite !(coeff_add_zip FL) by (rewrite ?add_zip_length; lia).
    unfold bracket1, bracket2, bracket3. rewrite !AN by (rewrite ?scale_geo_length, ?repeat_length; lia). rewrite (coeff_scale_geo OL), HZ by exact Hi.
    unfold coeff. rewrite !nth_repeat. ring.
  Qed.
  Lemma product_low n (V B : list F) i : (forall j, j < n - 1 -> coeff V j = fzero) -> (forall j, j < n - 1 -> coeff B j = fzero) -> i < 2 * n - 2 -> product_coeff V B i = fzero.
  Proof.
    intros H1 H2 Hi. unfold product_coeff. apply (fsum_zero OL). intros j Hj. destruct (Nat.lt_ge_cases j (n - 1)) as [E|E]; [rewrite H1 by exact E; ring|].
    rewrite (H2 (i - j)) by lia. ring.
  Qed.
  Lemma honest_at_x n (V sx : list F) y yi ky x xi : 1 <= n -> length V = 4 * n -> length sx = 3 * n + 1 -> (forall j, j < n - 1 -> coeff V j = fzero) ->
    product_coeff V (bracket n V sx y yi) (6 * n - 2) = fpow y n [*] ky -> x [*] xi = fone ->
    at_x n V sx (t_pos n V (bracket n V sx y yi)) (t_neg n V (bracket n V sx y yi)) y yi ky x xi.
  Proof.
    intros Hn HV HS HZ HC Hx. set (B := bracket n V sx y yi) in *.
    assert (LB : length B = 6 * n - 1) by apply (bracket_lengths n V sx y yi Hn HV HS).
    assert (HB : forall j, j < n - 1 -> coeff B j = fzero) by (intros j Hj; apply bracket_low; assumption).
    assert (Lp : length (t_pos n V B) = 4 * n) by (unfold t_pos; rewrite map_length, seq_length; reflexivity).
    assert (Ln : length (t_neg n V B) = 4 * n) by (unfold t_neg; rewrite map_length, seq_length; reflexivity).
    apply (at_x_iff FL n V sx _ _ y yi ky x xi Hn HV HS Lp Ln Hx). fold B.
    rewrite <- (eval_product FL V B (10 * n - 1) x) by lia.
    assert (LS : length (sides n (t_pos n V B) (t_neg n V B) (ky [*] fpow y n)) = 10 * n - 1).
    { unfold sides. rewrite !app_length, repeat_length, Lp, Ln. cbn [length]. lia. }
    unfold eval_at. rewrite LS. apply fsum_ext. intros i Hi. f_equal. unfold sides, coeff.
    destruct (Nat.lt_ge_cases i (2 * n - 2)) as [E|E].
    { rewrite app_nth1 by (rewrite repeat_length; exact E). rewrite nth_repeat. apply (product_low n); assumption. }
    rewrite app_nth2, repeat_length by (rewrite repeat_length; exact E). destruct (Nat.lt_ge_cases i (6 * n - 2)) as [E2|E2].
    { rewrite app_nth1 by lia. fold (coeff (t_neg n V B) (i - (2 * n - 2))). unfold t_neg. rewrite (coeff_map_seq (fun i => product_coeff V B (2 * n - 2 + i))) by lia. f_equal. lia. }
    rewrite app_nth2 by lia. rewrite Ln. destruct (Nat.eq_dec i (6 * n - 2)) as [->|E3].
    { replace (6 * n - 2 - (2 * n - 2) - 4 * n) with 0 by lia. cbn [nth app]. rewrite HC. ring. }
    rewrite app_nth2 by (cbn [length]; lia). cbn [length]. fold (coeff (t_pos n V B) (i - (2 * n - 2) - 4 * n - 1)).
    unfold t_pos. rewrite (coeff_map_seq (fun i => product_coeff V B (6 * n - 1 + i))) by lia. f_equal. lia.
  Qed.
End Equation.

Section Honest.
  Context {C : Curve} {q vb r vs} (CL : CurveLaws C q vb r vs).
  Notation G := (cl_group _ _ _ _ _ CL).
  Notation rep := (rep CL).
  Notation F := (Scalar C).
  Let SL := cl_scalar _ _ _ _ _ CL.
  Let SO := fl_ops _ _ _ SL.
  Add Field Fs : (ffield SO).
  Infix "[+]" := fadd (at level 50, left associativity).
  Infix "[-]" := fsub (at level 50, left associativity).
  Infix "[*]" := fmul (at level 40, left associativity).
  Notation msum := (msum CL).
  Notation smul := (smul CL).
  Variables (packed c ci : branch -> F).
  Hypothesis Hc : forall b, f_sqrt (get_challenge_scalar (F2 := F) (packed b)) = Some (c b).
  Hypothesis Hi : forall b, c b [*] ci b = fone.
  Hypothesis Hd : forall b b', b <> b' -> get_challenge_scalar (F2 := F) (packed b) <> get_challenge_scalar (packed b').

  (** *** The inner product argument, for several claims *)
  Fixpoint honest_many (k : nat) (gens : list C) (abs : list (list F * list F)) : prover C :=
    match k with
    | 0 => Ends (map (fun ab => hd fzero (fst ab)) abs) (hd c_zero gens)
    | S k => let l := 2 ^ k in
        Sends (mkRound (map (fun ab => pt_sum (firstn l (fst ab)) (skipn l gens)) abs) (map (fun ab => pt_sum (skipn l (fst ab)) (firstn l gens)) abs)
                       (map (fun ab => dot (firstn l (fst ab)) (skipn l (snd ab))) abs) (map (fun ab => dot (skipn l (fst ab)) (firstn l (snd ab))) abs)) packed
          (fun br => honest_many k (halve (fold_point (c br, ci br)) gens)
             (map (fun ab => (halve (fold_scalar (ci br, c br)) (fst ab), halve (fold_scalar (c br, ci br)) (snd ab))) abs))
    end.
  Lemma many_four k : forall gens abs, four_ways (honest_many k gens abs).
  Proof. induction k as [|k IH]; intros gens abs; [constructor|]. cbn [honest_many]. constructor; [exact Hd|]. intro br. apply IH. Qed.
  Definition same_at (j : nat) (x y : InnerProductRound C) : Prop :=
    nth_error (ip_L x) j = nth_error (ip_L y) 0 /\ nth_error (ip_R x) j = nth_error (ip_R y) 0 /\
    nth_error (ip_l x) j = nth_error (ip_l y) 0 /\ nth_error (ip_r x) j = nth_error (ip_r y) 0.
  Definition sized (m : nat) (x : InnerProductRound C) : Prop := length (ip_L x) = m /\ length (ip_R x) = m /\ length (ip_l x) = m /\ length (ip_r x) = m.
  Lemma many_runs k : forall gens abs, Forall (fun ab => length (fst ab) = 2 ^ k) abs -> forall pf packeds, run (honest_many k gens abs) pf packeds ->
    length (mo_a pf) = length abs /\ Forall (sized (length abs)) (mo_rounds pf) /\ length (mo_rounds pf) = k /\
    forall j a b, nth_error abs j = Some (a, b) -> exists pf', run (honest packed c ci k gens a b) pf' packeds /\ mo_g pf' = mo_g pf /\
      nth_error (mo_a pf) j = nth_error (mo_a pf') 0 /\ Forall2 (same_at j) (mo_rounds pf) (mo_rounds pf').
  Proof.
    induction k as [|k IH]; intros gens abs HL pf packeds HR; cbn [honest_many] in HR; inversion HR; subst.
    - cbn [mo_a mo_rounds mo_g]. rewrite map_length. split; [reflexivity|]. split; [constructor|]. split; [reflexivity|].
      intros j a b Hj. exists (mkMulti [] a (hd c_zero gens)). split; [constructor|]. split; [reflexivity|]. split; [|constructor]. cbn [mo_a].
      rewrite nth_error_map, Hj. cbn [option_map fst]. pose proof (proj1 (Forall_forall _ _) HL _ (nth_error_In _ _ Hj)) as E. destruct a; [discriminate E|]. reflexivity.
    - match goal with H : run (honest_many k _ _) _ _ |- _ => rename H into HR' end. cbn [mo_a mo_rounds mo_g].
      assert (HL' : Forall (fun ab => length (fst ab) = 2 ^ k) (map (fun ab => (halve (fold_scalar (ci b, c b)) (fst ab), halve (fold_scalar (c b, ci b)) (snd ab))) abs)).
      { apply Forall_map. eapply Forall_impl; [|exact HL]. intros [u w] E. cbn [fst snd] in *. rewrite halve_length, E, Nat.pow_succ_r', Nat.mul_comm. apply Nat.div_mul. lia. }
      destruct (IH _ _ HL' _ _ HR') as (A1 & A2 & A3 & A4). cbn [mo_a mo_rounds mo_g] in *. rewrite map_length in A1, A2.
      split; [exact A1|]. split. { constructor; [|exact A2]. unfold sized. cbn [ip_L ip_R ip_l ip_r]. rewrite !map_length. auto. }
      split; [cbn [length]; congruence|]. intros j a0 b0 Hj.
      destruct (A4 j (halve (fold_scalar (ci b, c b)) a0) (halve (fold_scalar (c b, ci b)) b0)) as (pf' & B1 & B2 & B3 & B4).
      { rewrite nth_error_map, Hj. reflexivity. }
      destruct pf' as [rounds' a' g']. cbn [mo_g mo_a mo_rounds] in *. subst g'.
      eexists. split; [cbn [honest]; apply run_round with (b := b); exact B1|]. cbn [mo_g mo_a mo_rounds]. split; [reflexivity|]. split; [exact B3|].
      constructor; [|exact B4]. unfold same_at. cbn [ip_L ip_R ip_l ip_r]. rewrite !nth_error_map, Hj. cbn [option_map fst snd nth_error]. auto.
  Qed.
  Lemma columns_same {B} (f : InnerProductRound C -> list B) (j : nat) (l l' : list (InnerProductRound C)) (Ls : list B) (Hf : forall x y, same_at j x y -> nth_error (f x) j = nth_error (f y) 0) (H : Forall2 (same_at j) l l') :
    Forall2 (fun round L => nth_error (f round) 0 = Some L) l' Ls -> Forall2 (fun round L => nth_error (f round) j = Some L) l Ls.
  Proof.
    revert Ls. induction H as [|x y l l' H1 _ IH]; intros Ls H2; inversion H2; subst; constructor; [|apply IH; assumption].
    rewrite (Hf _ _ H1). assumption.
  Qed.
  Definition item_claim (gens : list C) (it : list F * F) : PolynomialOpening C := mkOpening (pt_sum (fst it) gens) (eval_at (fst it) (snd it)) (snd it) false.
  Definition honest_items (k : nat) (gens : list C) (items : list (list F * F)) : prover C := honest_many k gens (map (fun it => (fst it, powers (snd it) (2 ^ k))) items).
  Lemma items_hold k gens items : 1 <= k -> Forall valid gens -> length gens = 2 ^ k -> Forall (fun it => length (fst it) = 2 ^ k) items -> items <> [] ->
    forall pf packeds, run (honest_items k gens items) pf packeds ->
    well_formed (length items) k pf /\ folds_to gens packeds (mo_g pf) /\
    forall j claim a, nth_error (map (item_claim gens) items) j = Some claim -> nth_error (mo_a pf) j = Some a -> claim_holds (mo_g pf) (mo_rounds pf) packeds j claim a.
  Proof.
    intros Hk HV HL HI NE pf packeds HR. unfold honest_items in HR.
    assert (HI' : Forall (fun ab => length (fst ab) = 2 ^ k) (map (fun it => (fst it, powers (snd it) (2 ^ k))) items)) by (apply Forall_map; exact HI).
    destruct (many_runs k gens _ HI' pf packeds HR) as (A1 & A2 & A3 & A4). rewrite map_length in A1, A2.
    assert (X : forall j it, nth_error items j = Some it -> exists pf', well_formed 1 k pf' /\ folds_to gens packeds (mo_g pf) /\ mo_g pf' = mo_g pf /\ nth_error (mo_a pf) j = nth_error (mo_a pf') 0 /\
      Forall2 (same_at j) (mo_rounds pf) (mo_rounds pf') /\
      forall a, nth_error (mo_a pf') 0 = Some a -> claim_holds (mo_g pf') (mo_rounds pf') packeds 0 (item_claim gens it) a).
    { intros j [u x] Hj. destruct (A4 j u (powers x (2 ^ k))) as (pf' & B1 & B2 & B3 & B4); [rewrite nth_error_map, Hj; reflexivity|].
      pose proof (proj1 (Forall_forall _ _) HI _ (nth_error_In _ _ Hj)) as Lu. cbn [fst] in Lu.
      destruct (honest_meets CL packed c ci Hc Hi Hd k gens u x false Hk HV HL Lu) as (_ & _ & _ & HS). destruct (HS pf' packeds B1) as (S1 & S2 & S3).
      exists pf'. split; [exact S1|]. split; [rewrite <- B2; exact S2|]. split; [exact B2|]. split; [exact B3|]. split; [exact B4|]. exact S3. }
    destruct items as [|it0 items']; [congruence|]. destruct (X 0 it0 eq_refl) as (pf0 & W0 & F0 & G0 & _). split; [|split; [exact F0|]].
    - destruct W0 as (_ & _ & _ & W4 & _). rewrite G0 in W4. split; [exact Hk|]. split; [exact A3|]. split; [rewrite A1; apply le_n|]. split; [exact W4|].
      apply Forall_forall. intros round HIr. pose proof (proj1 (Forall_forall _ _) A2 _ HIr) as (Z1 & Z2 & Z3 & Z4).
      split; [lia|]. split; [lia|]. split; [lia|]. split; [lia|].
      assert (Y : forall j, j < length (it0 :: items') -> exists round', same_at j round round' /\ Forall valid (ip_L round') /\ Forall valid (ip_R round')).
      { intros j Hj. destruct (nth_error (it0 :: items') j) as [it|] eqn:EJ; [|apply nth_error_None in EJ; lia].
        destruct (X j it EJ) as (pf' & (_ & _ & _ & _ & W) & _ & _ & _ & W' & _). clear - W W' HIr.
        induction W' as [|x y l l' H1 _ IH]; [destruct HIr|]. inversion W; subst. destruct HIr as [->|HIr]; [exists y; tauto|]. apply IH; assumption. }
      split; apply Forall_forall; intros P0 HP0; apply In_nth_error in HP0; destruct HP0 as (j & Ej);
        (assert (Hj : j < length (it0 :: items')) by (first [rewrite <- Z1; apply nth_error_Some; congruence|rewrite <- Z2; apply nth_error_Some; congruence]));
        destruct (Y j Hj) as (round' & (S1 & S2 & _) & V1 & V2).
      + rewrite S1 in Ej. exact (proj1 (Forall_forall _ _) V1 _ (nth_error_In _ _ Ej)).
      + rewrite S2 in Ej. exact (proj1 (Forall_forall _ _) V2 _ (nth_error_In _ _ Ej)).
    - intros j claim a Hj Ha. rewrite nth_error_map in Hj. destruct (nth_error (it0 :: items') j) as [it|] eqn:EJ; [|discriminate Hj]. injection Hj as <-.
      destruct (X j it EJ) as (pf' & _ & _ & Gj & Aj & Sj & Hh). rewrite Aj in Ha.
      destruct (Hh a Ha) as (cs & cis & Ls & Rs & ls & rs & A & b & R1 & R2 & K1 & K2 & K3 & K4 & KA & KB & Kb & KV). rewrite Gj in KB.
      exists cs, cis, Ls, Rs, ls, rs, A, b. split; [exact R1|]. split; [exact R2|].
      split; [refine (columns_same ip_L j _ _ _ _ Sj K1); intros x y HS; apply HS|]. split; [refine (columns_same ip_R j _ _ _ _ Sj K2); intros x y HS; apply HS|].
      split; [refine (columns_same ip_l j _ _ _ _ Sj K3); intros x y HS; apply HS|]. split; [refine (columns_same ip_r j _ _ _ _ Sj K4); intros x y HS; apply HS|].
      split; [exact KA|]. split; [exact KB|]. split; [exact Kb|exact KV].
  Qed.

  (** *** The rest of the prover *)
  Fixpoint mix (d : nat) (fs : list F) (us : list (list F)) : list F :=
    match fs, us with f :: fs, u :: us => vadd (vscale f u) (mix d fs us) | _, _ => repeat fzero d end.
  Lemma mix_length d fs : forall us, Forall (fun u => length u = d) us -> length (mix d fs us) = d.
  Proof.
    induction fs as [|f fs IH]; intros us H; [apply repeat_length|]. destruct H as [|u us H1 H2]; [apply repeat_length|].
    cbn [mix]. rewrite vadd_length; rewrite vscale_length; [exact H1|]. rewrite (IH _ H2). exact H1.
  Qed.
  Lemma mix_msum d fs gs : forall us, Forall (fun u => length u = d) us -> msum (mix d fs us) gs = msum fs (map (fun u => msum u gs) us).
  Proof.
    induction fs as [|f fs IH]; intros us H; [apply (msum_zero CL)|]. destruct H as [|u us H1 H2]; [apply (msum_zero CL)|].
    cbn [mix map]. rewrite (msum_cons CL), <- (IH _ H2), <- (msum_scale CL). apply (msum_add CL). rewrite vscale_length, (mix_length _ _ _ H2). exact H1.
  Qed.
  Lemma mix_eval d fs x : forall us, Forall (fun u => length u = d) us -> length fs = length us -> eval_at (mix d fs us) x = dot fs (map (fun u => eval_at u x) us).
  Proof.
    induction fs as [|f fs IH]; intros us H E; destruct H as [|u us H1 H2]; try discriminate E; [cbn [mix map]; apply (eval_repeat SO)|].
    cbn [mix map]. rewrite (IdentityP.dot_cons SO), <- (IH _ H2) by (injection E; auto). rewrite (eval_vadd CL), (eval_vscale CL); [reflexivity|].
    rewrite vscale_length, (mix_length _ _ _ H2). exact H1.
  Qed.
  Lemma fold_ex (pks cs cis : list F) x : rooted pks cs -> inverses cs cis ->
    powers_fold_to pks x (eval_at (compute_g_coeffs_for_inner_product (map fsquare cs) (prod_ cis)) x).
  Proof.
    intros H1 H2. apply (fold_iff SL pks cs cis _ _ H1 H2). rewrite (coeffs_eval SL x cs cis H2).
    pose proof (fold_scaled SO cs cis fone x (Forall2_len _ _ _ H2)) as E. replace (powers x (2 ^ length cs)) with (scaled fone x (2 ^ length cs)).
    - rewrite E. f_equal. ring.
    - unfold scaled, powers. apply map_ext. intro i. ring.
  Qed.
  Lemma commit_iff gens gs (u : list F) D : Forall2 rep gens gs -> length u <= length gens -> (commitment_to gens false u D <-> rep D (msum (resize u (length gens)) gs)).
  Proof.
    intros HG HL. split; [apply (commit_msum CL); exact HG|]. intro H. apply (commitment_rep CL _ gs _ _ _ HG). split; [exact HL|].
    rewrite (msum_resize CL) in H; [exact H|exact HL|]. symmetry. exact (Forall2_len _ _ _ HG).
  Qed.

  Section Tree.
    Variables (P : Params C) (circuit : Var -> CS F unit) (t : layout F) (s_poly : F -> list F) (k values : list F) (K : C) (L : Leftovers C) (a b w : list F).
    Hypothesis HP : good_params P.
    Hypothesis HT : laid_out false circuit t.
    Hypothesis Hg : l_gates t <= p_n P.
    Hypothesis HQ : length (l_lcs t) < p_d P.
    Hypothesis Hs : forall y, compute_sx P circuit y = Done (Ok (s_poly y)).
    Hypothesis Hk : forall q, coeff k q = input_at (l_inputs t) values q.
    Hypothesis HK : commitment_to (p_generators P) false k K.
    Hypothesis HL : honest_leftovers P circuit L.
    Hypothesis (La : length a = l_gates t) (Lb : length b = l_gates t) (Lw : length w = l_gates t).
    Hypothesis Hgates : gates_satisfied (l_gates t) a b w.
    Hypothesis Hlcs : lcs_satisfied (l_lcs t) (l_inputs t) values a b w.
    Let n := p_n P.
    Let d := 4 * p_n P.
    Let gens := p_generators P.
    Let inv (x : F) : F := fdiv (p := r) fone x.
    Let yo := y_new L.
    Definition vec_r : list F := repeat fzero (p_n P - 1) ++ rev (resize w (p_n P)) ++ rev (resize b (p_n P)) ++ [fzero] ++ resize a (p_n P).
    Definition vec_tp (y : F) : list F := t_pos (p_n P) vec_r (bracket (p_n P) vec_r (s_poly y) y (fdiv (p := r) fone y)).
    Definition vec_tn (y : F) : list F := t_neg (p_n P) vec_r (bracket (p_n P) vec_r (s_poly y) y (fdiv (p := r) fone y)).
    Definition vec_s (y : F) : list F := resize (s_poly y) (4 * p_n P).
    Definition vec_c (x : F) : list F := resize (vscale (fpow x (p_n P)) (fzero :: map (lc_val (monomials (p_n P) x (fdiv (p := r) fone x))) (l_lcs t))) (4 * p_n P).
    Definition polys (glc : list F) (y yn : F) : list (list F) := [vec_r; vec_s (y_new L); vec_s y; vec_tp y; vec_tn y; vec_s yn; glc].
    Definition items (glc : list F) (y x yn z : F) : list (list F * F) :=
      [(mix (4 * p_n P) (falling z) (polys glc y yn), x); (vec_r, x [*] y); (vec_c x, y_new L); (vadd (vec_c x) (vscale z (resize k (4 * p_n P))), y); (vec_c x, yn)].
    Definition node3 (glc : list F) (zs : list F) (y x yn : F) : stage3 C C (prover C) :=
      Stage3 _ _ (pt_sum (vec_s yn) (p_generators P)) (eval_at vec_r x) (eval_at vec_r (x [*] y)) (eval_at (vec_c x) (y_new L)) (eval_at (vec_c x) y)
        (eval_at (vec_tp y) x) (eval_at (vec_tn y) x) (eval_at (vec_c x) yn)
        (map (fun z => (z, honest_items (p_k P) (p_generators P) (items glc y x yn (get_challenge_scalar z)))) zs).
    Definition node2 (glc yns zs : list F) (y x : F) : stage2 C C (prover C) :=
      Stage2 _ _ (pt_sum (vec_c x) (p_generators P)) (map (fun yn => (yn, node3 glc zs y x yn)) yns).
    Definition node1 (glc xs yns zs : list F) (y : F) : stage1 C C (prover C) :=
      Stage1 _ _ (pt_sum (vec_s y) (p_generators P)) (pt_sum (vec_tp y) (p_generators P)) (pt_sum (vec_tn y) (p_generators P)) (map (fun x => (x, node2 glc yns zs y x)) xs).
    Definition node0 (glc ys xs yns zs : list F) : stage0 C C (prover C) :=
      Stage0 _ _ (pt_sum vec_r (p_generators P)) (map (fun y => (y, node1 glc xs yns zs y)) ys).

    Lemma n_pos : 1 <= n. Proof. destruct HP as (_ & _ & E & _). unfold n. pose proof (Nat.pow_nonzero 2 (p_k P)). lia. Qed.
    Lemma d_pow : d = 2 ^ p_k P. Proof. destruct HP as (_ & _ & E & _). exact E. Qed.
    Lemma k_pos : 1 <= p_k P.
    Proof. pose proof n_pos. pose proof d_pow as E. unfold d in E. unfold n in *. destruct (p_k P); [cbn in E; lia|lia]. Qed.
    Lemma len_r : length vec_r = d.
    Proof. pose proof n_pos. unfold vec_r. rewrite !app_length, !rev_length, !resize_len, repeat_length. cbn [length]. unfold d, n in *. lia. Qed.
    Lemma len_tp y : length (vec_tp y) = d. Proof. unfold vec_tp, t_pos. rewrite map_length, seq_length. reflexivity. Qed.
    Lemma len_tn y : length (vec_tn y) = d. Proof. unfold vec_tn, t_neg. rewrite map_length, seq_length. reflexivity. Qed.
    Lemma len_s y : length (vec_s y) = d. Proof. apply resize_len. Qed.
    Lemma len_c x : length (vec_c x) = d. Proof. apply resize_len. Qed.
    Lemma sx_shape y : exists u v z, s_poly y = sx_vec n u v z /\ length u <= n /\ length v <= n /\ length z <= n /\ forall f, total u v z f = s_sum (l_lcs t) y f.
    Proof. destruct (compute_sx_eq CL P circuit t y HT) as (u & v & z & E & L1 & L2 & L3 & ET). rewrite Hs in E. injection E as E. exists u, v, z. rewrite L1, L2, L3. auto. Qed.
    Lemma sp_len y : length (s_poly y) = 3 * n + 1.
    Proof. destruct (sx_shape y) as (u & v & z & -> & _). apply sx_vec_length. Qed.
    Lemma sp_short y : length (s_poly y) <= d. Proof. rewrite sp_len. pose proof n_pos. unfold d, n in *. lia. Qed.
    Lemma eval_s y x : eval_at (vec_s y) x = eval_at (s_poly y) x. Proof. apply (eval_resize SL), sp_short. Qed.
    Lemma inv_ok (x : F) : x <> fzero -> x [*] fdiv (p := r) fone x = fone. Proof. intro H. field. exact H. Qed.
    Lemma eval_c (x y : F) : x <> fzero -> eval_at (vec_c x) y = eval_at (s_poly y) x.
    Proof.
      intro Hx. pose proof (inv_ok x Hx) as Hxi. set (xi := fdiv (p := r) fone x) in *.
      rewrite (SoundP.s_eval CL n s_poly (l_lcs t) sx_shape y x xi Hxi).
      unfold vec_c. fold xi. rewrite (eval_resize SL) by (rewrite vscale_length; cbn [length]; rewrite map_length; pose proof HP as (_ & E1 & E2 & _); lia).
      rewrite (eval_vscale CL), (sy_eval SO). reflexivity.
    Qed.
    Lemma ky_value y : eval_at k y = k_value (l_inputs t) values (length (l_lcs t)) y.
    Proof. apply (inputs_eval CL); [|exact Hk]. apply (lo_range t (lay_ok_run _ _ _ _ _ (ok_layout0 false) HT)). Qed.
    Lemma vec_r_low j : j < n - 1 -> coeff vec_r j = fzero.
    Proof. intro Hj. unfold vec_r, coeff. rewrite app_nth1 by (rewrite repeat_length; exact Hj). apply nth_repeat. Qed.
    Lemma constant_ok (y : F) : y <> fzero -> product_coeff vec_r (bracket n vec_r (s_poly y) y (fdiv (p := r) fone y)) (6 * n - 2) = fpow y n [*] eval_at k y.
    Proof.
      intro Hy. pose proof (inv_ok y Hy) as Hyi. set (yi := fdiv (p := r) fone y) in *. destruct (sx_shape y) as (u & v & z & -> & Lu & Lv & Lz & ET).
      unfold sx_vec, vec_r. fold n.
      rewrite (constant_any SL n (repeat fzero (n - 1)) (resize a n) (resize b n) (resize w n) (resize u n) (resize v n) (resize z n) fzero y yi n_pos (repeat_length _ _)
        (resize_len _ _) (resize_len _ _) (resize_len _ _) (resize_len _ _) (resize_len _ _) (resize_len _ _) Hyi).
      rewrite (fsum_zero SO).
      2: { intros i Hi'. assert (E : coeff (resize a n) i [*] coeff (resize b n) i = coeff (resize w n) i).
           { rewrite !(coeff_resize) by (unfold n; lia). destruct (Nat.lt_ge_cases i (l_gates t)) as [E|E].
             - pose proof (Hgates (S i) ltac:(lia)) as X. unfold wire in X. rewrite Nat.sub_succ, Nat.sub_0_r in X. exact X.
             - unfold coeff. rewrite !nth_overflow by lia. ring. }
           rewrite E. ring. }
      rewrite (dot_comm SO (resize a n)), (dot_comm SO (resize b n)), (dot_comm SO (resize w n)) by (rewrite !resize_len; reflexivity).
      rewrite !dot_lin, !(lin_resize SO) by assumption.
      assert (EW : lin u (wire (resize a n)) [+] lin v (wire (resize b n)) [+] lin z (wire (resize w n)) = s_sum (l_lcs t) y (wires a b w)).
      { rewrite <- ET. unfold total. assert (WR : forall (l m : list F), length m <= n -> lin l (wire (resize m n)) = lin l (wire m)).
        { intros l m Hm. unfold lin. apply fsum_ext. intros i _. f_equal. unfold wire. apply coeff_resize, Hm. }
        rewrite !WR by (unfold n; lia). reflexivity. }
      rewrite EW, ky_value.
      assert (ES : s_sum (l_lcs t) y (wires a b w) = k_value (l_inputs t) values (length (l_lcs t)) y).
      { unfold s_sum, k_value, sum_q. apply fsum_ext. intros i Hi'. f_equal. apply Hlcs; [|lia]. rewrite Nat.sub_succ, Nat.sub_0_r.
        unfold lc_number. rewrite Nat.sub_succ, Nat.sub_0_r. apply nth_error_nth'. exact Hi'. }
      rewrite ES. ring.
    Qed.

    Lemma convinced_ok glc gs gx y x yn z ip pks : Forall2 rep gens gs -> length glc = d -> rep (g_new L) (msum glc gs) -> (forall x', powers_fold_to (challenges_sq_packed_new L) x' (eval_at glc x')) ->
      gx = eval_at glc x -> y <> fzero -> x <> fzero -> run (honest_items (p_k P) gens (items glc y x yn (get_challenge_scalar z))) ip pks ->
      convinced P circuit K k L
        (mkProof (pt_sum vec_r gens) (pt_sum (vec_s y) gens) (pt_sum (vec_tp y) gens) (pt_sum (vec_tn y) gens) (pt_sum (vec_c x) gens) (pt_sum (vec_s yn) gens)
          (eval_at vec_r x) (eval_at vec_r (x [*] y)) (eval_at (vec_c x) (y_new L)) (eval_at (vec_c x) y) (eval_at (vec_tp y) x) (eval_at (vec_tn y) x) (eval_at (vec_c x) yn) ip)
        y x yn z pks.
    Proof.
      intros HG Lg Rg Fg Egx Hy Hx HR. set (z' := get_challenge_scalar z) in *. pose proof HP as (_ & Pd & Pn & PL & PV).
      assert (EL : length gens = d) by (rewrite d_pow; exact PL).
      assert (LI : Forall (fun u => length u = d) (polys glc y yn)).
      { unfold polys. repeat (constructor; [first [apply len_r|apply len_s|apply len_tp|apply len_tn|exact Lg]|]). constructor. }
      assert (LIt : Forall (fun it => length (fst it) = 2 ^ p_k P) (items glc y x yn z')).
      { rewrite <- d_pow. unfold items. repeat (constructor; [cbn [fst]|]); [apply mix_length, LI|apply len_r|apply len_c| |apply len_c|constructor].
        rewrite vadd_length; [apply len_c|]. rewrite vscale_length, resize_len. apply len_c. }
      destruct (items_hold (p_k P) gens (items glc y x yn z') k_pos PV PL LIt ltac:(discriminate) ip pks HR) as (W & Fo & HH).
      pose proof HL as (HL1 & HL2 & sx & HL3 & HL4). rewrite Hs in HL3. injection HL3 as HL3. subst sx.
      pose proof (commit_msum CL _ _ _ _ HG HL4) as Rso. fold gens in Rso. rewrite EL in Rso. fold yo in Rso.
      pose proof (commit_msum CL _ _ _ _ HG HK) as RK. fold gens in RK. rewrite EL in RK.
      assert (VP : forall u, valid (pt_sum u gens)) by (intro u; eexists; exact (pt_sum_rep CL u _ _ HG)).
      assert (Lpk : length pks = p_k P).
      { destruct W as (_ & W2 & _). rewrite <- W2. clear - HR. induction HR; cbn [mo_rounds length] in *; [reflexivity|f_equal; assumption]. }
      split; [|split; [|split]].
      - split; [|split; [exact W|split]].
        + cbn [pf_r_commitment pf_s_cur_commitment pf_t_positive_commitment pf_t_negative_commitment pf_c_commitment pf_s_new_commitment].
          repeat (constructor; [first [apply VP|eexists; exact Rso|eexists; exact Rg]|]). constructor.
        + intro E. rewrite E in HL1. cbn in HL1. pose proof k_pos. lia.
        + destruct HL2 as (cs & _ & _ & R1 & _). clear - R1. induction R1; constructor; [congruence|assumption].
      - exists gx, (map (item_claim gens) (items glc y x yn z')). cbv zeta. split; [rewrite Egx; apply Fg|]. split; [|exact HH].
        exists (pt_sum (mix d (falling z') (polys glc y yn)) gens), (pt_sum (vadd (vec_c x) (vscale z' (resize k d))) gens). eexists _, _.
        split; [exact (pt_sum_rep CL _ _ _ HG)|]. split; [exact (pt_sum_rep CL _ _ _ HG)|].
        cbn [pf_r_commitment pf_s_cur_commitment pf_t_positive_commitment pf_t_negative_commitment pf_c_commitment pf_s_new_commitment
           pf_rx_opening pf_rxy_opening pf_sx_old_opening pf_sx_cur_opening pf_tx_positive_opening pf_tx_negative_opening pf_sx_new_opening].
        split.
        { apply (combination_iff CL (falling z') _ (map (fun u => msum u gs) (polys glc y yn))); [|reflexivity|].
          - unfold polys. cbn [map]. repeat (constructor; [first [exact (pt_sum_rep CL _ _ _ HG)|exact Rso|exact Rg]|]). constructor.
          - f_equal. exact (mix_msum d (falling z') gs _ LI). }
        split.
        { apply (combination_iff CL [fone; z'] _ [msum (vec_c x) gs; msum (resize k d) gs]); [|reflexivity|].
          - constructor; [exact (pt_sum_rep CL _ _ _ HG)|]. constructor; [exact RK|constructor].
          - f_equal. change (msum (vadd (vec_c x) (vscale z' (resize k d))) gs = msum [fone; z'] [msum (vec_c x) gs; msum (resize k d) gs]).
            rewrite (msum_add CL) by (rewrite vscale_length, resize_len; apply len_c). rewrite (msum_scale CL), !(msum_cons CL), (smul_1 CL).
            change (msum [] []) with (@g0 G). abel. }
        split; [reflexivity|]. split; [|reflexivity].
        unfold items, item_claim. cbn [map po_opening fst snd]. fold d.
        rewrite (mix_eval d (falling z') x _ LI eq_refl). unfold polys. cbn [map]. rewrite !eval_s, <- Egx, !(eval_c x) by exact Hx.
        rewrite (eval_vadd CL) by (rewrite vscale_length, resize_len; apply len_c). rewrite (eval_vscale CL), (eval_resize SL) by (pose proof (proj1 HK); fold gens in H; lia).
        rewrite (eval_c x y Hx). reflexivity.
      - cbn [pf_s_new_commitment pf_inner_product]. split; [exact Lpk|]. split; [exact Fo|]. cbn [y_new s_new_commitment]. exists (s_poly yn). split; [apply Hs|].
        apply (commit_iff gens gs _ _ HG); [rewrite EL; apply sp_short|]. rewrite EL. exact (pt_sum_rep CL _ _ _ HG).
      - exists (mkDeferred x fzero y fzero (eval_at k y) (eval_at (vec_tp y) x) (eval_at (vec_tn y) x) (eval_at (vec_c x) y) (eval_at vec_r x) (eval_at vec_r (x [*] y)) [] fzero [] fzero fzero fzero fzero fzero),
          (fdiv (p := r) fone x), (fdiv (p := r) fone y).
        do 8 (split; [reflexivity|]). split; [exact (inv_ok x Hx)|]. split; [exact (inv_ok y Hy)|].
        pose proof (honest_at_x SL n vec_r (s_poly y) y (fdiv (p := r) fone y) (eval_at k y) x (fdiv (p := r) fone x) n_pos len_r (sp_len y) vec_r_low (constant_ok y Hy) (inv_ok x Hx)) as E.
        unfold at_x in E. unfold deferred_equation. cbn [d_x d_y_cur d_rx_opening d_rxy_opening d_sx_cur_opening d_ky_opening d_tx_positive_opening d_tx_negative_opening].
        cbv zeta. rewrite (eval_c x y Hx). exact E.
    Qed.

    Theorem honest_tree (ys xs yns zs : list F) : 
      NoDup ys -> 2 * p_n P + length (l_lcs t) < length ys -> Forall (fun y : F => y <> fzero) ys ->
      NoDup xs -> 10 * p_n P - 1 <= length xs -> Forall (fun x : F => x <> fzero) xs ->
      NoDup yns -> 4 * p_n P <= length yns -> NoDup (map (get_challenge_scalar (F2 := F)) zs) -> length zs = 7 ->
      exists T, map fst (with_y _ _ T) = ys /\ enough (p_n P) (length (l_lcs t)) T /\
        forall pf y x yn z pks, conversed T pf y x yn z pks -> convinced P circuit K k L pf y x yn z pks.
    Proof.
      intros D0 L0 Z0 D1 L1 Z1 D2 L2 D3 L3. pose proof HP as (_ & Pd & Pn & PL & PV). destruct (valid_reps CL _ PV) as (gs & HG).
      pose proof (proj1 (ProverTop.honest_iff CL P HP gs HG circuit L) HL) as (cs & cis & sx & R1 & R2 & R3 & R4 & _).
      set (glc := compute_g_coeffs_for_inner_product (map fsquare cs) (prod_ cis)) in *.
      assert (Lg : length glc = d). { unfold glc. rewrite coeffs_length, map_length, d_pow. f_equal. rewrite <- R3. symmetry. exact (Forall2_len _ _ _ R1). }
      exists (node0 glc ys xs yns zs).
      assert (MF : forall {A} (f : F -> A) l, map fst (map (fun u => (u, f u)) l) = l) by (intros A f l; rewrite map_map; apply map_id).
      assert (MI : forall {A} (f : F -> A) l u v, In (u, v) (map (fun u => (u, f u)) l) -> v = f u /\ In u l).
      { intros A f l u v HI. apply in_map_iff in HI. destruct HI as (u' & E & HI). injection E as -> ->. split; [reflexivity|exact HI]. }
      split; [apply MF|]. split.
      - unfold enough, node0. cbn [with_y]. rewrite MF, map_length. split; [exact D0|]. split; [exact L0|]. intros y T1 I0. apply MI in I0. destruct I0 as (-> & I0).
        unfold node1. cbn [with_x]. rewrite MF, map_length. split; [exact D1|]. split; [exact L1|]. intros x T2 I1. apply MI in I1. destruct I1 as (-> & I1).
        unfold node2. cbn [with_y_new]. rewrite MF, map_length. split; [exact D2|]. split; [exact L2|]. intros yn T3 I2. apply MI in I2. destruct I2 as (-> & I2).
        unfold node3. cbn [with_z]. rewrite map_map, map_length. split; [exact D3|]. split; [exact L3|]. intros z p I3. apply MI in I3. destruct I3 as (-> & _). apply many_four.
      - intros pf y x yn z pks (T1 & T2 & T3 & p & ip & I0 & I1 & I2 & I3 & HR & ->).
        unfold node0 in I0. cbn [with_y] in I0. apply MI in I0. destruct I0 as (-> & I0).
        unfold node1 in I1. cbn [with_x] in I1. apply MI in I1. destruct I1 as (-> & I1).
        unfold node2 in I2. cbn [with_y_new] in I2. apply MI in I2. destruct I2 as (-> & I2).
        unfold node3 in I3. cbn [with_z] in I3. apply MI in I3. destruct I3 as (-> & I3).
        unfold node0, node1, node2, node3. cbn [r_sent s_cur_sent t_positive_sent t_negative_sent c_sent s_new_sent rx_sent rxy_sent sx_old_sent sx_cur_sent tx_positive_sent tx_negative_sent sx_new_sent].
        refine (convinced_ok glc gs _ y x yn z ip pks HG Lg R4 _ eq_refl _ _ HR).
        + intro x'. exact (fold_ex _ cs cis x' R1 R2).
        + exact (proj1 (Forall_forall _ _) Z0 y I0).
        + exact (proj1 (Forall_forall _ _) Z1 x I1).
    Qed.
  End Tree.
End Honest.
