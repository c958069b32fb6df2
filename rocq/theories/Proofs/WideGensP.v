(** Example parameters of every size: all generators are the curve's generator G except
    the second, which is 2^100 G, so that no addition of the input commitment is
    exceptional. *)
From Coq Require Import ZArith List Bool Arith Lia.
From Verif Require Import Lib.AbGroup Lib.Abel Model.FieldTrait Model.Curve Model.Params
  Spec.FieldLaws Spec.CurveSpec Spec.CurveLaws Spec.ProofSpec Spec.RecursiveCircuitSpec Proofs.FieldGen Proofs.CurveTop Proofs.MultiexpP Proofs.OpeningP Proofs.OpeningTop Proofs.PowerGensP.
Import ListNotations.
Open Scope nat_scope. Open Scope list_scope.

Section Wide.
  Context {C : Curve} {q vb r vs} (CL : CurveLaws C q vb r vs).
  Notation G := (cl_group _ _ _ _ _ CL).
  Notation pt := (cl_point _ _ _ _ _ CL).
  Notation gen := (cl_gen _ _ _ _ _ CL).

  Lemma B100 : (2 ^ 100 + 2 ^ 101 < 2 ^ 200)%Z. Proof. reflexivity. Qed.
  Lemma B3 : (3 < 2 ^ 100)%Z. Proof. reflexivity. Qed.
  Lemma wide_sum xy : pt gen = Some xy -> forall n m bits, (2 ^ 100 <= m)%Z -> (m + Z.of_nat n < 2 ^ 100 + 2 ^ 101)%Z ->
    exists B, bit_sum (repeat xy n) bits (pt (zmul m gen)) B.
  Proof.
    intro E. assert (E1 : pt (zmul 1 gen) = Some xy) by (rewrite zmul_1; exact E).
    pose proof B100 as HB. pose proof B3 as H3. revert HB H3. generalize (2 ^ 100)%Z (2 ^ 101)%Z. intros u v HB H3.
    induction n as [|n IH]; intros m bits H1 H2; [eexists; apply bit_sum_short|]. destruct bits as [|b bits]; [eexists; apply bit_sum_done|].
    cbn [repeat]. destruct xy as [x y].
    assert (M1 : (0 < m < 2 ^ 200)%Z) by (split; [lia|eapply Z.lt_trans; [|exact HB]; lia]).
    assert (M2 : (0 < m + 1 < 2 ^ 200)%Z) by (split; [lia|eapply Z.lt_trans; [|exact HB]; lia]).
    destruct (IH (if b then m + 1 else m)%Z bits) as (B & HS); [destruct b; lia|destruct b; lia|].
    exists B. apply bit_sum_next with (S := pt (zmul (m + 1) gen)).
    - apply multiple_ne. exact M1.
    - rewrite <- E1. intro H. apply (cl_inj _ _ _ _ _ CL), zinj in H; [lia|split; [lia|apply M1]|split; [lia|reflexivity]].
    - change (Some (x, fneg y)) with (opposite (Some (x, y))). rewrite <- E1, <- (cl_opposite _ _ _ _ _ CL). intro H. apply (cl_inj _ _ _ _ _ CL) in H.
      apply (multiple_ne CL (m + 1)); [exact M2|]. rewrite <- (cl_infinity _ _ _ _ _ CL). f_equal. rewrite zmul_add, H. apply gp_n_l.
    - rewrite <- E1. apply (cl_sum _ _ _ _ _ CL). rewrite zmul_add. reflexivity.
    - destruct b; exact HS.
  Qed.
  Lemma multiple_xy m : (0 < m < 2 ^ 200)%Z -> exists xy, pt (zmul m gen) = Some xy.
  Proof. intro H. destruct (pt (zmul m gen)) as [xy|] eqn:E; [exists xy; reflexivity|]. destruct (multiple_ne CL m H E). Qed.
  Lemma wide_params_exist k : 2 <= k <= 30 -> exists P : Params C, p_k P = k /\ good_params P /\
    Forall2 (fun G xy => CurveSpec.represents G (Some xy)) (p_generators P) (p_generators_xy P) /\
    forall bits, exists B, bits_commitment P bits B.
  Proof.
    intro Hk. assert (H4 : 4 <= 2 ^ k) by (change 4 with (2 ^ 2); apply Nat.pow_le_mono_r; lia).
    assert (HZ : (Z.of_nat (2 ^ k) <= 2 ^ 30)%Z). { rewrite Nat2Z.inj_pow. apply Z.pow_le_mono_r; lia. }
    destruct (multiple_xy 1 ltac:(split; [lia|reflexivity])) as (g & Eg). destruct (multiple_xy (2 ^ 100) ltac:(split; reflexivity)) as (h & Eh).
    set (xys := g :: h :: repeat g (2 ^ k - 2)). set (gs := map (fun '(x, y) => c_from_xy_unchecked x y : C) xys).
    assert (HR : Forall2 (fun G xy => CurveSpec.represents G (Some xy)) gs xys).
    { assert (X : forall xy m, pt (zmul m gen) = Some xy -> CurveSpec.represents (let '(x, y) := xy in c_from_xy_unchecked x y : C) (Some xy)).
      { intros [x y] m E. apply (cl_from_xy_unchecked _ _ _ _ _ CL). rewrite <- E. apply (cl_on _ _ _ _ _ CL). }
      unfold gs, xys. cbn [map]. constructor; [exact (X g _ Eg)|]. constructor; [exact (X h _ Eh)|].
      induction (2 ^ k - 2) as [|n IH]; cbn [repeat map]; constructor; [exact (X g _ Eg)|exact IH]. }
    assert (HL : length gs = 2 ^ k). { unfold gs, xys. rewrite map_length. cbn [length]. rewrite repeat_length. lia. }
    exists (mkParams c_one (2 ^ k) (2 ^ (k - 2)) k gs xys). split; [reflexivity|]. split.
    { unfold good_params. cbn [p_k p_d p_n p_generators]. split; [lia|]. split; [reflexivity|]. split; [change 4 with (2 ^ 2); rewrite <- Nat.pow_add_r; f_equal; lia|].
      split; [exact HL|]. clear - HR. induction HR; constructor; [eexists; eassumption|assumption]. }
    split; [exact HR|]. intro bits. unfold bits_commitment. cbn [p_generators_xy].
    destruct (wide_sum g ltac:(rewrite <- Eg, zmul_1; reflexivity) (2 ^ k - 2) (2 ^ 100)%Z bits) as (B & HB); [lia| |].
    { rewrite Nat2Z.inj_sub by lia. assert (Y : (2 ^ 30 < 2 ^ 101)%Z) by reflexivity. revert HZ Y. generalize (2 ^ 30)%Z (2 ^ 101)%Z (2 ^ 100)%Z. lia. }
    exists B, g, h, (repeat g (2 ^ k - 2)). split; [reflexivity|]. rewrite <- Eh. exact HB.
  Qed.
End Wide.
