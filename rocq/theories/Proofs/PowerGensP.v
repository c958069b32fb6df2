(** Example parameters whose generators are the points 2^i times the curve's
    generator: no addition of the input commitment is exceptional. *)
From Coq Require Import ZArith List Bool Arith Lia.
From Verif Require Import Lib.AbGroup Lib.Abel Model.FieldTrait Model.Curve Model.Params
  Spec.FieldLaws Spec.CurveSpec Spec.CurveLaws Spec.ProofSpec Spec.RecursiveCircuitSpec Proofs.FieldGen Proofs.CurveTop Proofs.MultiexpP Proofs.OpeningP Proofs.OpeningTop.
Import ListNotations.
Open Scope nat_scope. Open Scope list_scope.

Section Powers.
  Context {C : Curve} {q vb r vs} (CL : CurveLaws C q vb r vs).
  Notation G := (cl_group _ _ _ _ _ CL).
  Notation pt := (cl_point _ _ _ _ _ CL).
  Notation gen := (cl_gen _ _ _ _ _ CL).
  Let SL := cl_scalar _ _ _ _ _ CL.
  Definition gpow (i : nat) : G := zmul (2 ^ Z.of_nat i) gen.

  Lemma zinj a b : (0 <= a < 2 ^ 200)%Z -> (0 <= b < 2 ^ 200)%Z -> zmul a gen = zmul b gen -> a = b.
  Proof.
    intros Ha Hb. pose proof (fl_size _ _ _ SL) as [HS _].
    assert (X : (2 ^ 200 < 2 ^ 254)%Z) by reflexivity.
    assert (forall z, (0 <= z < 2 ^ 200)%Z -> (0 <= z < r)%Z) as Y. { intros z [H1 H2]. split; [exact H1|]. exact (Z.lt_trans _ _ _ H2 (Z.lt_trans _ _ _ X HS)). }
    apply (zmul_g_inj r gen); [exact (ol_prime _ _ _ (fl_ops _ _ _ SL))|apply (cl_order _ _ _ _ _ CL)|apply (cl_gen_nonzero _ _ _ _ _ CL)|apply Y, Ha|apply Y, Hb].
  Qed.
  Lemma pow_lt i j : i <= j -> (0 < 2 ^ Z.of_nat i <= 2 ^ Z.of_nat j)%Z.
  Proof. intro H. split; [apply Z.pow_pos_nonneg; lia|apply Z.pow_le_mono_r; lia]. Qed.
  Lemma pow_bound i : i <= 100 -> (0 < 2 ^ Z.of_nat i < 2 ^ 150)%Z.
  Proof. intro H. pose proof (pow_lt i 100 H) as [H1 H2]. split; [exact H1|]. eapply Z.le_lt_trans; [exact H2|reflexivity]. Qed.
  Lemma multiple_ne m : (0 < m < 2 ^ 200)%Z -> pt (zmul m gen) <> infinity.
  Proof.
    intros Hm E. rewrite <- (cl_infinity _ _ _ _ _ CL) in E. apply (cl_inj _ _ _ _ _ CL) in E. change g0 with (zmul 0 gen : G) in E.
    apply zinj in E; lia.
  Qed.
  Lemma gpow_xy i : i <= 100 -> exists xy, pt (gpow i) = Some xy.
  Proof.
    intro H. destruct (pt (gpow i)) as [xy|] eqn:E; [exists xy; reflexivity|]. exfalso. apply (multiple_ne (2 ^ Z.of_nat i)); [|exact E].
    pose proof (pow_bound i H) as [H1 H2]. split; [exact H1|]. eapply Z.lt_trans; [exact H2|reflexivity].
  Qed.
  Lemma gpows n : forall i, i + n <= 100 -> exists xys, Forall2 (fun j xy => pt (gpow j) = Some xy) (seq i n) xys.
  Proof.
    induction n as [|n IH]; intros i H; [exists []; constructor|]. destruct (gpow_xy i) as (xy & E); [lia|]. destruct (IH (S i)) as (xys & H'); [lia|].
    exists (xy :: xys). constructor; assumption.
  Qed.
  Fixpoint addup (m : Z) (i n : nat) (bits : list bool) : Z :=
    match n, bits with S n, b :: bits => addup (if b then m + 2 ^ Z.of_nat i else m) (S i) n bits | _, _ => m end.
  Lemma powers_sum n : forall i xys, i + n <= 100 -> Forall2 (fun j xy => pt (gpow j) = Some xy) (seq i n) xys ->
    forall m bits, (1 <= m < 2 ^ Z.of_nat i)%Z -> bit_sum xys bits (pt (zmul m gen)) (pt (zmul (addup m i n bits) gen)).
  Proof.
    induction n as [|n IH]; intros i xys Hn HF m bits Hm; inversion HF as [|? [x y] ? xys' E HF']; subst; [cbn [addup]; apply bit_sum_short|].
    destruct bits as [|b bits]; cbn [addup]; [apply bit_sum_done|].
    pose proof (pow_bound i ltac:(lia)) as [HB1 HB2].
    assert (B200 : (2 ^ 150 + 2 ^ 150 < 2 ^ 200)%Z) by reflexivity.
    revert HB1 HB2 B200 Hm. unfold gpow in E. set (e := (2 ^ Z.of_nat i)%Z) in *. set (u := (2 ^ 150)%Z). intros HB1 HB2 B200 Hm.
    assert (M200 : (m + e < 2 ^ 200)%Z). { eapply Z.lt_trans; [|exact B200]. lia. }
    assert (M1 : (m < 2 ^ 200)%Z). { eapply Z.lt_trans; [|exact M200]. lia. }
    assert (M2 : (e < 2 ^ 200)%Z). { eapply Z.lt_trans; [|exact M200]. lia. }
    apply bit_sum_next with (S := pt (zmul (m + e) gen)).
    - apply multiple_ne. split; [lia|exact M1].
    - rewrite <- E. intro H. apply (cl_inj _ _ _ _ _ CL), zinj in H; [lia|split; [lia|exact M1]|split; [lia|exact M2]].
    - change (Some (x, fneg y)) with (opposite (Some (x, y))). rewrite <- E, <- (cl_opposite _ _ _ _ _ CL). intro H. apply (cl_inj _ _ _ _ _ CL) in H.
      apply (multiple_ne (m + e)); [split; [lia|exact M200]|]. rewrite <- (cl_infinity _ _ _ _ _ CL). f_equal. rewrite zmul_add, H. apply gp_n_l.
    - rewrite <- E. apply (cl_sum _ _ _ _ _ CL). rewrite zmul_add. reflexivity.
    - assert (HE : (2 ^ Z.of_nat (S i) = e + e)%Z). { unfold e. rewrite Nat2Z.inj_succ, Z.pow_succ_r by lia. lia. }
      destruct b; apply IH; try lia; try assumption; rewrite HE; lia.
  Qed.
  (** the parameters, and the sum for the bits of a commitment *)
  Definition power_params (k : nat) (P : Params C) : Prop :=
    p_k P = k /\ good_params P /\ good_generators P /\
    Forall2 (rep CL) (p_generators P) (map gpow (seq 0 (2 ^ k))) /\
    forall bits, bits_commitment P bits (pt (zmul (addup 2 2 (2 ^ k - 2) bits) gen)).
  Lemma power_params_exist k : 2 <= k <= 6 -> exists P, power_params k P.
  Proof.
    intro Hk. assert (H4 : 4 <= 2 ^ k) by (change 4 with (2 ^ 2); apply Nat.pow_le_mono_r; lia).
    assert (H64 : 2 ^ k <= 64) by (change 64 with (2 ^ 6); apply Nat.pow_le_mono_r; lia).
    destruct (gpows (2 ^ k) 0) as (xys & HX); [lia|].
    set (gs := map (fun '(x, y) => c_from_xy_unchecked x y : C) xys).
    assert (HR : Forall2 (fun G xy => CurveSpec.represents G (Some xy)) gs xys).
    { unfold gs. clear - HX. induction HX as [|j [x y] l l' E _ IH]; cbn [map]; constructor; [|exact IH]. apply (cl_from_xy_unchecked _ _ _ _ _ CL). rewrite <- E. apply (cl_on _ _ _ _ _ CL). }
    assert (HRg : Forall2 (rep CL) gs (map gpow (seq 0 (2 ^ k)))).
    { clear - HR HX. revert gs HR. induction HX as [|j xy l l' E _ IH]; intros gs HR; inversion HR; subst; cbn [map]; constructor; [unfold CurveTop.rep; rewrite E; assumption|apply IH; assumption]. }
    exists (mkParams c_one (2 ^ k) (2 ^ (k - 2)) k gs xys). split; [reflexivity|]. split.
    { unfold good_params. cbn [p_k p_d p_n p_generators]. split; [lia|]. split; [reflexivity|]. split; [change 4 with (2 ^ 2); rewrite <- Nat.pow_add_r; f_equal; lia|].
      split. { rewrite (Forall2_len _ _ _ HRg), map_length, seq_length. reflexivity. }
      clear - HRg. induction HRg; constructor; [eexists; eassumption|assumption]. }
    split; [exists gs; exact HR|]. split; [exact HRg|].
    intro bits. unfold bits_commitment. cbn [p_generators_xy]. destruct (2 ^ k) as [|[|n]] eqn:En; [lia|lia|]. cbn [seq] in HX.
    inversion HX as [|? x0 ? l0 E0 HX0]; subst. inversion HX0 as [|? x1 ? l1 E1 HX1]; subst. exists x0, x1, l1. split; [reflexivity|].
    rewrite <- E1. unfold gpow at 1. replace (S (S n) - 2) with n by lia. apply (powers_sum n 2 l1 ltac:(lia) HX1 2 bits). cbn. lia.
  Qed.
  Lemma power_commit P K : power_params 5 P -> rep CL K (zmul 6 gen) -> commitment_to (p_generators P) false [fzero; fone; fone] K.
  Proof.
    intros (Pk & (_ & _ & _ & Pg & _) & _ & HR & _) HK. rewrite Pk in Pg. apply (commitment_rep CL _ _ _ _ _ HR). rewrite Pg. split; [cbn [length]; change (2 ^ 5) with 32; lia|].
    change (2 ^ 5) with (S (S (S 29))). cbn [seq map length position firstn MultiexpP.zsum].
    rewrite (ol_zero _ _ _ (fl_ops _ _ _ SL)), (ol_one _ _ _ (fl_ops _ _ _ SL)). unfold gpow. change (2 ^ Z.of_nat 0)%Z with 1%Z. change (2 ^ Z.of_nat 1)%Z with 2%Z. change (2 ^ Z.of_nat 2)%Z with 4%Z.
    replace (gp _ _) with (zmul 6 gen); [exact HK|]. change 6%Z with (2 + 4)%Z. rewrite zmul_add. abel.
  Qed.
End Powers.
