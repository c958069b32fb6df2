(** The exact meaning of [Deferred::verify]. *)
From Coq Require Import ZArith List Bool Arith Lia Ring Field.
From Verif Require Import Model.FieldTrait Model.Circuits Model.Curve Model.Threads Model.Util Model.Params Model.Opening Model.Proofs
  Spec.FieldLaws Spec.UtilSpec Spec.SystemSpec Spec.ProofSpec
  Proofs.FieldGen Proofs.ZtoF Proofs.SumP Proofs.PolyMulP Proofs.SystemP Proofs.FoldP Proofs.UtilTop Proofs.ParamsP Proofs.DeferredP Proofs.MultiexpP Proofs.ProverLemmas.
Import ListNotations.
Open Scope nat_scope.
Open Scope list_scope.

Lemma list_eq_nil {A} (l : list A) : l = [] \/ l <> []. Proof. destruct l; [left; reflexivity|right; discriminate]. Qed.

Section Exact.
  Context {F : Field} {p v} (FL : FieldLaws F p v).
  Let OL := fl_ops _ _ _ FL.
  Add Field Ff : (ffield OL).

  Lemma cases_rooted (packed : list F) : (exists cs, rooted packed cs) \/ (root_challenges (unpack_challenges packed) = None /\ exists pk, In pk packed /\ f_sqrt (@get_challenge_scalar F F pk) = None).
  Proof.
    induction packed as [|pk packed IH]; [left; exists []; constructor|].
    destruct (f_sqrt (@get_challenge_scalar F F pk)) as [c|] eqn:E.
    - destruct IH as [(cs & H)|(H & pk' & Hi & Hp)].
      + left. exists (c :: cs). constructor; assumption.
      + right. split; [|exists pk'; split; [right; exact Hi|exact Hp]]. revert H. unfold root_challenges, unpack_challenges, all_some. cbn [map fold_right]. rewrite E.
        intros ->. reflexivity.
    - right. split; [|exists pk; split; [left; reflexivity|exact E]]. unfold root_challenges, unpack_challenges, all_some. cbn [map fold_right]. rewrite E. reflexivity.
  Qed.
  Lemma rooted_none (packed cs : list F) pk : rooted packed cs -> In pk packed -> f_sqrt (@get_challenge_scalar F F pk) = None -> False.
  Proof.
    unfold rooted. induction 1 as [|pk' c packed cs H _ IH]; intros Hi Hp; [destruct Hi|]. destruct Hi as [->|Hi]; [congruence|exact (IH Hi Hp)].
  Qed.
  Lemma rooted_nil (cs : list F) : rooted [] cs -> cs = []. Proof. inversion 1. reflexivity. Qed.
  Lemma rooted_unique (packed cs cs' : list F) : rooted packed cs -> rooted packed cs' -> cs = cs'.
  Proof.
    unfold rooted. intro H. revert cs'. induction H as [|pk c packed cs H _ IH]; intros cs' H'; inversion H' as [|? c' ? cs2 H1 H2]; subst; [reflexivity|].
    f_equal; [congruence|apply IH, H2].
  Qed.
  Lemma inverses_unique (cs cis cis' : list F) : inverses cs cis -> inverses cs cis' -> cis = cis'.
  Proof.
    unfold inverses. intro H. revert cis'. induction H as [|c ci cs cis H _ IH]; intros cis' H'; inversion H' as [|? c' ? cs2 H1 H2]; subst; [reflexivity|].
    f_equal; [|apply IH, H2]. transitivity (fmul ci (fmul c c')); [rewrite H1; ring|]. transitivity (fmul (fmul c ci) c'); [ring|]. rewrite H. ring.
  Qed.
  Lemma fold_iff (packed cs cis : list F) x b : rooted packed cs -> inverses cs cis ->
    (powers_fold_to packed x b <-> fold_vector fold_scalar (combine cs cis) (powers x (2 ^ length cs)) = [b]).
  Proof.
    intros H1 H2. split.
    - intros (cs' & cis' & A1 & A2 & A3). rewrite (rooted_unique _ _ _ A1 H1) in *. rewrite (inverses_unique _ _ _ A2 H2) in *. exact A3.
    - intro H. exists cs, cis. split; [exact H1|]. split; [exact H2|exact H].
  Qed.
  Lemma b_eq (packed cs cis : list F) x : rooted packed cs -> inverses cs cis -> cs <> [] ->
    exists b, compute_b x cs cis = Some b /\ forall b', (b = b' <-> powers_fold_to packed x b').
  Proof.
    intros H1 H2 H3. destruct (compute_b_eq OL x cs cis H3 (Forall2_len _ _ _ H2)) as (b & E & HB). exists b. split; [exact E|].
    intro b'. rewrite (fold_iff _ _ _ _ _ H1 H2), HB. split; [intros ->; reflexivity|intro X; injection X as X; exact X].
  Qed.

  Lemma compute_exact (D : Deferred F) k xi yi : 2 <= k <= 64 -> fmul (d_x D) xi = fone -> fmul (d_y_cur D) yi = fone ->
    exists lhs rhs, deferred_compute D k = Some (lhs, rhs) /\ (lhs = rhs <-> deferred_equation (2 ^ (k - 2)) D xi yi).
  Proof.
    intros Hk Hx Hy. pose proof (pow4_div k (proj1 Hk)) as [HD _]. set (n := 2 ^ (k - 2)) in *.
    assert (Hn1 : 1 <= n) by (unfold n; pose proof (Nat.pow_nonzero 2 (k - 2)); lia).
    assert (HZn : (Z.of_nat n <= 2 ^ 62)%Z). { unfold n. rewrite Nat2Z.inj_pow. change (Z.of_nat 2) with 2%Z. apply Z.pow_le_mono_r; lia. }
    unfold deferred_compute. rewrite (feqb_false FL _ _ (inverse_nz FL _ _ Hx)), (feqb_false FL _ _ (inverse_nz FL _ _ Hy)).
    rewrite HD, (finvert_eq FL _ xi Hx), (finvert_eq FL _ yi Hy). cbn [obind].
    unfold usize_sub. rewrite (proj2 (Nat.leb_le _ _)) by lia. cbn [obind]. rewrite (proj2 (Nat.leb_le _ _)) by lia. cbn [obind].
    eexists. eexists. split; [reflexivity|]. unfold deferred_equation. rewrite !(pow64 OL) by lia. rewrite !(compute_thing_eq FL), !(fsquare_mul OL). fold n.
    assert (E1 : fmul (fmul (fmul (fpow xi n) (fpow xi n)) (fpow xi n)) (d_x D) = fpow xi (3 * n - 1)).
    { rewrite <- !(fpow_add OL). replace (n + n + n) with (S (3 * n - 1)) by lia. cbn [fpow]. transitivity (fmul (fmul (d_x D) xi) (fpow xi (3 * n - 1))); [ring|]. rewrite Hx. ring. }
    rewrite E1. assert (E4 : fmul (fmul (fpow xi n) (fpow xi n)) (fmul (fpow xi n) (fpow xi n)) = fpow xi (4 * n)). { rewrite <- !(fpow_add OL). f_equal. lia. }
    rewrite E4. unfold sum_q. rewrite (fsum_add OL).
    set (X3 := fpow xi (3 * n - 1)). set (XY := fpow (fmul xi yi) (3 * n - 1)). set (S1 := fsum _ n). set (S2 := fsum _ n). set (X4 := fpow xi (4 * n)).
    set (XI := fpow xi n). set (Y := fpow (d_y_cur D) n). set (X := fpow (d_x D) n).
    generalize (d_rx_opening D) (d_rxy_opening D) (d_sx_cur_opening D) (d_ky_opening D) (d_tx_positive_opening D) (d_tx_negative_opening D).
    intros a b c d e f. clearbody X3 XY S1 S2 X4 XI Y X.
    match goal with |- ?l = ?r <-> ?l' = ?r' => assert (l = l') as -> by ring; reflexivity end.
  Qed.

  Theorem verify_exact (D : Deferred F) k xi yi : 2 <= k <= 64 -> fmul (d_x D) xi = fone -> fmul (d_y_cur D) yi = fone ->
    let old := d_challenges_sq_packed_old D in let new := d_challenges_sq_packed_new D in
    old <> [] -> new <> [] -> Forall (fun pk => f_sqrt (@get_challenge_scalar F F pk) <> None) (old ++ new) ->
    exists b, deferred_verify D k = Some b /\
      (b = true <-> deferred_equation (2 ^ (k - 2)) D xi yi /\ powers_fold_to old (d_x D) (d_gx_old_opening D) /\
        powers_fold_to new (d_x D) (d_b_x D) /\ powers_fold_to new (fmul (d_x D) (d_y_cur D)) (d_b_xy D) /\
        powers_fold_to new (d_y_old D) (d_b_y_old D) /\ powers_fold_to new (d_y_cur D) (d_b_y_cur D) /\ powers_fold_to new (d_y_new D) (d_b_y_new D)).
  Proof.
    intros Hk Hx Hy old new No Nn HR. apply Forall_app in HR. destruct HR as [HRo HRn].
    destruct (compute_exact D k xi yi Hk Hx Hy) as (lhs & rhs & EC & HE).
    destruct (cases_rooted old) as [(co & Ho)|(_ & pk & Hi & Hp)]; [|destruct (proj1 (Forall_forall _ _) HRo pk Hi Hp)].
    destruct (cases_rooted new) as [(cn & Hn)|(_ & pk & Hi & Hp)]; [|destruct (proj1 (Forall_forall _ _) HRn pk Hi Hp)].
    destruct (rooted_inv FL _ _ Ho) as (coi & Hoi). destruct (rooted_inv FL _ _ Hn) as (cni & Hni).
    assert (Nco : co <> []) by (intros ->; inversion Ho; congruence). assert (Ncn : cn <> []) by (intros ->; inversion Hn; congruence).
    unfold deferred_verify. rewrite EC. cbn [obind]. fold old new. rewrite (rooted_eq _ _ Ho). cbn [obind]. rewrite (invert_all_eq FL _ _ Hoi). cbn [obind].
    destruct (b_eq old co coi (d_x D) Ho Hoi Nco) as (b0 & -> & I0). cbn [obind]. rewrite (rooted_eq _ _ Hn). cbn [obind]. rewrite (invert_all_eq FL _ _ Hni). cbn [obind].
    destruct (b_eq new cn cni (d_x D) Hn Hni Ncn) as (b1 & -> & I1). cbn [obind].
    destruct (b_eq new cn cni (fmul (d_x D) (d_y_cur D)) Hn Hni Ncn) as (b2 & -> & I2). cbn [obind].
    destruct (b_eq new cn cni (d_y_old D) Hn Hni Ncn) as (b3 & -> & I3). cbn [obind].
    destruct (b_eq new cn cni (d_y_cur D) Hn Hni Ncn) as (b4 & -> & I4). cbn [obind].
    destruct (b_eq new cn cni (d_y_new D) Hn Hni Ncn) as (b5 & -> & I5). cbn [obind].
    eexists. split; [reflexivity|]. rewrite !andb_true_iff, !(feqb_eq OL), HE, I0.
    rewrite <- I1, <- I2, <- I3, <- I4, <- I5. intuition congruence.
  Qed.
  Lemma compute_none (D : Deferred F) k : deferred_compute D k = None <-> d_x D = fzero \/ d_y_cur D = fzero \/ k < 2.
  Proof.
    unfold deferred_compute. destruct (feqb (d_x D) fzero) eqn:Ex. { apply (feqb_eq OL) in Ex. tauto. }
    destruct (feqb (d_y_cur D) fzero) eqn:Ey. { apply (feqb_eq OL) in Ey. tauto. }
    assert (Hx : d_x D <> fzero) by (intro X; rewrite X, (feqb_refl OL) in Ex; discriminate Ex).
    assert (Hy : d_y_cur D <> fzero) by (intro X; rewrite X, (feqb_refl OL) in Ey; discriminate Ey).
    destruct (finvert_some FL _ Hx) as (xi & -> & _). destruct (finvert_some FL _ Hy) as (yi & -> & _). cbn [obind].
    unfold usize_sub. destruct (Nat.lt_ge_cases k 2) as [H|H].
    - split; [intros _; tauto|intros _]. destruct (1 <=? 3 * (2 ^ k / 4)); [|reflexivity]. cbn [obind]. rewrite (proj2 (Nat.leb_gt _ _) H). reflexivity.
    - destruct (pow4_div k H) as [-> _]. pose proof (Nat.pow_nonzero 2 (k - 2)). rewrite (proj2 (Nat.leb_le _ _)) by lia. cbn [obind].
      rewrite (proj2 (Nat.leb_le _ _) H). cbn [obind]. split; [discriminate|]. intros [X|[X|X]]; [contradiction|contradiction|lia].
  Qed.
  Theorem verify_panics (D : Deferred F) k : let old := d_challenges_sq_packed_old D in let new := d_challenges_sq_packed_new D in
    deferred_verify D k = None <-> d_x D = fzero \/ d_y_cur D = fzero \/ k < 2 \/ old = [] \/ new = [] \/
      exists pk, In pk (old ++ new) /\ f_sqrt (@get_challenge_scalar F F pk) = None.
  Proof.
    intros old new. unfold deferred_verify. fold old new.
    destruct (deferred_compute D k) as [[lhs rhs]|] eqn:EC.
    2: { apply compute_none in EC. cbn [obind]. tauto. }
    assert (NC : ~ (d_x D = fzero \/ d_y_cur D = fzero \/ k < 2)). { intro X. apply compute_none in X. congruence. }
    cbn [obind].
    destruct (cases_rooted old) as [(co & Ho)|(-> & pk & Hi & Hp)].
    2: { cbn [obind]. split; [|reflexivity]. intros _. do 5 right. exists pk. split; [apply in_or_app; left; exact Hi|exact Hp]. }
    destruct (rooted_inv FL _ _ Ho) as (coi & Hoi). rewrite (rooted_eq _ _ Ho). cbn [obind]. rewrite (invert_all_eq FL _ _ Hoi). cbn [obind].
    destruct (list_eq_nil co) as [->|Nco].
    { split; [intros _|reflexivity]. inversion Ho. tauto. }
    destruct (b_eq old co coi (d_x D) Ho Hoi Nco) as (b0 & -> & I0). cbn [obind].
    destruct (cases_rooted new) as [(cn & Hn)|(-> & pk & Hi & Hp)].
    2: { cbn [obind]. split; [|reflexivity]. intros _. do 5 right. exists pk. split; [apply in_or_app; right; exact Hi|exact Hp]. }
    destruct (rooted_inv FL _ _ Hn) as (cni & Hni). rewrite (rooted_eq _ _ Hn). cbn [obind]. rewrite (invert_all_eq FL _ _ Hni). cbn [obind].
    destruct (list_eq_nil cn) as [->|Ncn].
    { split; [intros _|reflexivity]. inversion Hn. tauto. }
    destruct (b_eq new cn cni (d_x D) Hn Hni Ncn) as (b1 & -> & I1). cbn [obind].
    destruct (b_eq new cn cni (fmul (d_x D) (d_y_cur D)) Hn Hni Ncn) as (b2 & -> & I2). cbn [obind].
    destruct (b_eq new cn cni (d_y_old D) Hn Hni Ncn) as (b3 & -> & I3). cbn [obind].
    destruct (b_eq new cn cni (d_y_cur D) Hn Hni Ncn) as (b4 & -> & I4). cbn [obind].
    destruct (b_eq new cn cni (d_y_new D) Hn Hni Ncn) as (b5 & -> & I5). cbn [obind].
    split; [discriminate|]. intros [X|[X|[X|[X|[X|(pk & Hi & Hp)]]]]]; try tauto; exfalso.
    - rewrite X in Ho. apply rooted_nil in Ho. contradiction.
    - rewrite X in Hn. apply rooted_nil in Hn. contradiction.
    - apply in_app_or in Hi. destruct Hi as [Hi|Hi]; [exact (rooted_none _ _ _ Ho Hi Hp)|exact (rooted_none _ _ _ Hn Hi Hp)].
  Qed.
End Exact.
