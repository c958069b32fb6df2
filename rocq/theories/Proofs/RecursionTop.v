(** Deferred data in the circuit: the checks up to signs. *)
From Coq Require Import String List Bool Arith ZArith Lia Ring Field.
From Verif Require Import Model.FieldTrait Model.Circuits Model.Num Model.Boolean Model.Util Model.Params Model.Proofs Model.Recursion
  Spec.FieldLaws Spec.CircuitSpec Spec.NumSpec Spec.BoolSpec Spec.UtilSpec Spec.CurveSpec Spec.SystemSpec Spec.ProofSpec Spec.RecursionSpec
  Proofs.FieldGen Proofs.ZtoF Proofs.CircuitP Proofs.LcP Proofs.NumP Proofs.BoolP Proofs.UnpackP Proofs.ChallengeP Proofs.SumP
  Proofs.ParamsP Proofs.ProverLemmas Proofs.DeferredP Proofs.DeferredTop Proofs.RecursionP Proofs.ModeP Proofs.RecursionDeferredP.
Import ListNotations.
Open Scope nat_scope.
Open Scope list_scope.

Section Signs.
  Context {F : Field} {p : Z} {v : F -> Z} (FL : FieldLaws F p v).
  Let OL : OpsLaws F p v := fl_ops _ _ _ FL.
  Add Field Ff : (ffield OL).

  Lemma sign_mul s t : sign s -> sign t -> @sign F (fmul s t).
  Proof. unfold sign. intros [->| ->] [->| ->]; [left|right|right|left]; ring. Qed.
  Lemma sign_sq s : @sign F s -> fmul s s = fone.
  Proof. intros [->| ->]; ring. Qed.
  Lemma root_sign (c d : F) : fmul c c = fmul d d -> exists s, sign s /\ c = fmul s d.
  Proof.
    intro H. assert (E : fmul (fsub c d) (fadd c d) = fzero) by (transitivity (fsub (fmul c c) (fmul d d)); [ring|rewrite H; ring]).
    apply (fmul_zero OL) in E. destruct E as [E|E].
    - exists fone. split; [left; reflexivity|]. apply (proj1 (fsub_zero OL _ _)) in E. rewrite E. ring.
    - exists (fneg fone). split; [right; reflexivity|]. transitivity (fsub (fadd c d) d); [ring|]. rewrite E. ring.
  Qed.
  Lemma inv_sign (s c ci d di : F) : sign s -> c = fmul s d -> fmul c ci = fone -> fmul d di = fone -> ci = fmul s di.
  Proof.
    intros Hs -> H1 H2. transitivity (fmul (fmul d di) ci); [rewrite H2; ring|].
    transitivity (fmul (fmul s s) (fmul (fmul d di) ci)); [rewrite (sign_sq s Hs); ring|].
    transitivity (fmul (fmul s di) (fmul (fmul s d) ci)); [ring|]. rewrite H1. ring.
  Qed.
  (** the same up to signs *)
  Definition near (a b : F * F) : Prop := exists s, sign s /\ fst a = fmul s (fst b) /\ snd a = fmul s (snd b).
  Lemma b_rev_sign l : forall l', Forall2 near l l' -> exists s, sign s /\
    forall x, compute_b_rev x (map fst l) (map snd l) = fmul s (compute_b_rev x (map fst l') (map snd l')).
  Proof.
    induction l as [|[c ci] l IH]; intros l' H; inversion H as [|a [d di] l0 l1 Hn H']; subst.
    - exists fone. split; [left; reflexivity|]. intro x. cbn. ring.
    - destruct (IH l1 H') as (s & Hs & E). destruct Hn as (t & Ht & E1 & E2). cbn [fst snd] in E1, E2. subst c ci.
      destruct l as [|a l].
      + inversion H'; subst. exists t. split; [exact Ht|]. intro x. cbn. ring.
      + inversion H' as [|? b ? l1' Hn' H'']; subst. exists (fmul t s). split; [apply sign_mul; assumption|]. intro x.
        change (fmul (fadd (fmul t di) (fmul (fmul t d) x)) (compute_b_rev (fsquare x) (map fst (a :: l)) (map snd (a :: l))) =
          fmul (fmul t s) (fmul (fadd di (fmul d x)) (compute_b_rev (fsquare x) (map fst (b :: l1')) (map snd (b :: l1'))))).
        rewrite E. ring.
  Qed.
  Lemma combine_fst {A B} (l : list A) (l' : list B) : length l = length l' -> map fst (combine l l') = l /\ map snd (combine l l') = l'.
  Proof. revert l'. induction l as [|a l IH]; intros [|b l'] H; try discriminate H; [split; reflexivity|]. injection H as H. destruct (IH l' H). cbn. split; congruence. Qed.
  Lemma near_roots (sq cs ds cis dis : list F) : Forall2 (fun x c => fmul c c = x) sq cs -> Forall2 (fun x c => fmul c c = x) sq ds ->
    inverses cs cis -> inverses ds dis -> Forall2 near (combine cs cis) (combine ds dis).
  Proof.
    intros H. revert ds cis dis. induction H as [|x c sq cs H _ IH]; intros ds cis dis H2 I1 I2.
    - inversion H2; subst. constructor.
    - inversion H2 as [|? d ? ds' Hd H2']; subst. inversion I1 as [|? ci ? cis' Hci I1']; subst. inversion I2 as [|? di ? dis' Hdi I2']; subst.
      cbn [combine]. constructor; [|apply IH; assumption]. destruct (root_sign c d (eq_sym Hd)) as (s & Hs & E).
      exists s. cbn [fst snd]. split; [exact Hs|]. split; [exact E|]. exact (inv_sign s c ci d di Hs E Hci Hdi).
  Qed.
  Lemma F2_rev {A B} (R : A -> B -> Prop) l l' : Forall2 R l l' -> Forall2 R (rev l) (rev l').
  Proof. induction 1 as [|a b l l' H _ IH]; [constructor|]. cbn [rev]. apply Forall2_app; [exact IH|constructor; [exact H|constructor]]. Qed.
  Lemma b_sign (sq cs ds cis dis : list F) : Forall2 (fun x c => fmul c c = x) sq cs -> Forall2 (fun x c => fmul c c = x) sq ds ->
    inverses cs cis -> inverses ds dis -> exists s, sign s /\
    forall x b, compute_b x cs cis = Some b -> compute_b x ds dis = Some (fmul s b).
  Proof.
    intros H1 H2 I1 I2. pose proof (near_roots sq ds cs dis cis H2 H1 I2 I1) as HN. apply F2_rev in HN.
    destruct (b_rev_sign _ _ HN) as (s & Hs & E). exists s. split; [exact Hs|]. intros x b EB.
    pose proof (UnpackP.Forall2_length _ _ _ H1). pose proof (UnpackP.Forall2_length _ _ _ H2). pose proof (UnpackP.Forall2_length _ _ _ I1) as L3. pose proof (UnpackP.Forall2_length _ _ _ I2) as L4.
    unfold compute_b in *. rewrite L3, Nat.eqb_refl in EB. rewrite L4, Nat.eqb_refl.
    replace (length dis) with (length cis) by congruence. destruct (length cis =? 0); [discriminate EB|].
    assert (EB' : compute_b_rev x (rev cs) (rev cis) = b) by congruence. rewrite <- EB'. f_equal.
    specialize (E x). rewrite !map_rev in E. destruct (combine_fst _ _ L3) as [X3 Y3]. destruct (combine_fst _ _ L4) as [X4 Y4].
    rewrite X3, Y3, X4, Y4 in E. exact E.
  Qed.
  Lemma sqrt_exists (x c : F) : fmul c c = x -> exists r, f_sqrt x = Some r /\ fmul r r = x.
  Proof.
    intro H. destruct (f_sqrt x) as [r|] eqn:E.
    - exists r. split; [reflexivity|]. apply (fl_sqrt_some _ _ _ FL) in E. apply (ol_inj _ _ _ OL). rewrite (ol_mul _ _ _ OL). exact E.
    - exfalso. apply (fl_sqrt_none _ _ _ FL _ E (v c)). rewrite <- (ol_mul _ _ _ OL), H. reflexivity.
  Qed.
  Lemma root_list (packed cs : list F) : Forall2 (fun x c => fmul c c = x) (sq_of packed) cs ->
    exists rs, rooted packed rs /\ Forall2 (fun x c => fmul c c = x) (sq_of packed) rs.
  Proof.
    intro H. apply F2_map_l in H. unfold sq_of. induction H as [|pk c packed cs H _ IH].
    - exists []. split; constructor.
    - destruct IH as (rs & H1 & H2). destruct (sqrt_exists _ _ H) as (r & E1 & E2). exists (r :: rs). cbn [map]. split; constructor; assumption.
  Qed.
  Lemma rooted_squares (packed rs : list F) : rooted packed rs -> Forall2 (fun x c => fmul c c = x) (sq_of packed) rs.
  Proof.
    unfold sq_of. induction 1 as [|pk r packed rs H _ IH]; [constructor|]. cbn [map]. constructor; [|exact IH].
    apply (fl_sqrt_some _ _ _ FL) in H. apply (ol_inj _ _ _ OL). rewrite (ol_mul _ _ _ OL). exact H.
  Qed.

  Lemma flip_last l : forall li x (r ri : F), length l = length li ->
    compute_b_rev x (l ++ [fneg r]) (li ++ [fneg ri]) = fneg (compute_b_rev x (l ++ [r]) (li ++ [ri])).
  Proof.
    induction l as [|c l IH]; intros [|ci li] x r ri HL; try discriminate HL.
    - cbn. ring.
    - injection HL as HL. cbn [app].
      assert (K : forall a b, compute_b_rev x (c :: l ++ [a]) (ci :: li ++ [b]) = fmul (fadd ci (fmul c x)) (compute_b_rev (fsquare x) (l ++ [a]) (li ++ [b]))).
      { intros a b. destruct l; reflexivity. }
      rewrite !K, IH by exact HL. ring.
  Qed.
  Theorem holds_signs k (D : Deferred F) : k <= 64 -> (length (d_challenges_sq_packed_old D) = k) -> (length (d_challenges_sq_packed_new D) = k) ->
    (holds k D <-> exists s t, sign s /\ sign t /\ deferred_verify (with_signs s t D) k = Some true).
  Proof.
    intros Hk L1 L2. split.
    - intros (H2 & (xi & yi & Hxi & Hyi & HE) & (co & coi & Ro & Io & Bo) & (cn & cni & Rn & In_ & B1 & B2 & B3 & B4 & B5)).
      destruct (root_list _ _ Ro) as (ro & Ho & Ho'). destruct (root_list _ _ Rn) as (rn & Hn & Hn').
      destruct (rooted_inv FL _ _ Ho) as (roi & Hoi). destruct (rooted_inv FL _ _ Hn) as (rni & Hni).
      destruct (b_sign _ _ _ _ _ Ro Ho' Io Hoi) as (s & Hs & Es). destruct (b_sign _ _ _ _ _ Rn Hn' In_ Hni) as (t & Ht & Et).
      exists s, t. split; [exact Hs|]. split; [exact Ht|]. set (D' := with_signs s t D).
      assert (HP : forall xs rs, rooted xs rs -> Forall (fun pk => f_sqrt (@get_challenge_scalar F F pk) <> None) xs).
      { induction 1 as [|pk r xs rs E _ IH]; constructor; [congruence|exact IH]. }
      assert (NE : forall (xs : list F), length xs = k -> xs <> []) by (intros [|x xs] HL; [cbn in HL; lia|discriminate]).
      assert (NR : forall (xs rs : list F), length xs = k -> rooted xs rs -> rs <> []) by (intros xs rs HL HR ->; inversion HR; subst; cbn in HL; lia).
      destruct (verify_exact FL D' k xi yi (conj H2 Hk) Hxi Hyi (NE _ L1) (NE _ L2)) as (b & Eb & Hb).
      { apply Forall_app. split; [exact (HP _ _ Ho)|exact (HP _ _ Hn)]. }
      rewrite Eb. f_equal. apply (proj2 Hb). split; [exact HE|].
      assert (PF : forall (packed rs ris : list F) x y, length packed = k -> rooted packed rs -> inverses rs ris -> compute_b x rs ris = Some y -> powers_fold_to packed x y).
      { intros packed rs ris x y HL HR HI EB. destruct (b_eq FL packed rs ris x HR HI (NR _ _ HL HR)) as (b' & EB' & HB').
        apply (proj1 (HB' y)). congruence. }
      split; [apply (PF _ _ _ _ _ L1 Ho Hoi), (Es _ _ Bo)|].
      split; [apply (PF _ _ _ _ _ L2 Hn Hni), (Et _ _ B1)|]. split; [apply (PF _ _ _ _ _ L2 Hn Hni), (Et _ _ B2)|].
      split; [apply (PF _ _ _ _ _ L2 Hn Hni), (Et _ _ B3)|]. split; [apply (PF _ _ _ _ _ L2 Hn Hni), (Et _ _ B4)|].
      apply (PF _ _ _ _ _ L2 Hn Hni), (Et _ _ B5).
    - intros (s & t & Hs & Ht & HV). set (D' := with_signs s t D) in *.
      assert (HP : ~ (d_x D' = fzero \/ d_y_cur D' = fzero \/ k < 2 \/ d_challenges_sq_packed_old D' = [] \/ d_challenges_sq_packed_new D' = [] \/
        exists pk, In pk (d_challenges_sq_packed_old D' ++ d_challenges_sq_packed_new D') /\ f_sqrt (@get_challenge_scalar F F pk) = None)).
      { intro X. apply (verify_panics FL D' k) in X. congruence. }
      assert (H2 : 2 <= k) by (destruct (Nat.lt_ge_cases k 2); [exfalso; apply HP; tauto|assumption]).
      destruct (finvert_some FL (d_x D)) as (xi & _ & Hxi). { intro X. apply HP. left. exact X. }
      destruct (finvert_some FL (d_y_cur D)) as (yi & _ & Hyi). { intro X. apply HP. right. left. exact X. }
      assert (NE : forall (xs : list F), length xs = k -> xs <> []) by (intros [|x xs] HL; [cbn in HL; lia|discriminate]).
      destruct (verify_exact FL D' k xi yi (conj H2 Hk) Hxi Hyi (NE _ L1) (NE _ L2)) as (b & Eb & Hb).
      { apply Forall_forall. intros pk Hpk X. apply HP. do 5 right. exists pk. split; assumption. }
      assert (b = true) by congruence. destruct (proj1 Hb H) as (HE & P0 & P1 & P2 & P3 & P4 & P5).
      (* from the true folds to folds with one root negated *)
      assert (K : forall (packed : list F) (u : F), length packed = k -> sign u -> (exists rs, rooted packed rs) ->
        exists cs cis, Forall2 (fun x c => fmul c c = x) (sq_of packed) cs /\ inverses cs cis /\
          forall x y, powers_fold_to packed x (fmul u y) -> compute_b x cs cis = Some y).
      { intros packed u HL Hu (rs & HR). destruct (rooted_inv FL _ _ HR) as (ris & HI).
        pose proof (rooted_squares _ _ HR) as HQ.
        assert (HX : exists cs cis, Forall2 (fun x c => fmul c c = x) (sq_of packed) cs /\ inverses cs cis /\
          forall x y, compute_b x rs ris = Some (fmul u y) -> compute_b x cs cis = Some y).
        { destruct Hu as [->| ->].
          - exists rs, ris. split; [exact HQ|]. split; [exact HI|]. intros x y E. rewrite E. f_equal. ring.
          - destruct packed as [|pk packed]; [cbn in HL; lia|]. inversion HR as [|? r ? rs' Er HR']; subst. inversion HI as [|? ri ? ris' Eri HI']; subst.
            unfold sq_of in HQ. cbn [map] in HQ. inversion HQ as [|? ? ? ? Eq HQ']; subst.
            exists (fneg r :: rs'), (fneg ri :: ris'). split; [constructor; [rewrite <- Eq; ring|exact HQ']|].
            split; [constructor; [rewrite <- Eri; ring|exact HI']|]. intros x y E.
            unfold compute_b in *. cbn [length] in *. change (S (length rs') =? 0) with false in *. cbv iota in *.
            destruct (S (length rs') =? S (length ris')); [|discriminate E]. f_equal.
            assert (E' : compute_b_rev x (rev (r :: rs')) (rev (ri :: ris')) = fmul (fneg fone) y) by congruence.
            cbn [rev] in *. rewrite flip_last, E' by (rewrite !rev_length; exact (UnpackP.Forall2_length _ _ _ HI')). ring. }
        destruct HX as (cs & cis & X1 & X2 & X3). exists cs, cis. split; [exact X1|]. split; [exact X2|]. intros x y HF. apply X3.
        destruct (b_eq FL packed rs ris x HR HI) as (b' & EB' & HB').
        { intros ->. inversion HR; subst. cbn in HL. lia. }
        rewrite EB'. f_equal. apply (proj2 (HB' _) HF). }
      assert (RT : forall xs, incl xs (d_challenges_sq_packed_old D' ++ d_challenges_sq_packed_new D') -> exists rs, rooted xs rs).
      { intros xs Hxs. destruct (cases_rooted xs) as [X|(_ & pk & Hi & Hp)]; [exact X|]. exfalso. apply HP. do 5 right. exists pk. split; [apply Hxs, Hi|exact Hp]. }
      destruct (K _ s L1 Hs (RT _ (incl_appl _ (incl_refl _)))) as (co & coi & Q1 & Q2 & Q3).
      destruct (K _ t L2 Ht (RT _ (incl_appr _ (incl_refl _)))) as (cn & cni & R1 & R2 & R3).
      split; [exact H2|]. split; [exists xi, yi; auto|]. split; [exists co, coi; auto|]. exists cn, cni. repeat (split; [auto; fail|]). auto.
  Qed.
End Signs.
