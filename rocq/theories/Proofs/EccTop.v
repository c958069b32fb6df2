(** The theorems about ecc.rs in the words of Spec/CurveSpec and Spec/UtilSpec. *)
From Coq Require Import String List Bool ZArith Lia.
From Verif Require Import Lib.AbGroup Model.FieldTrait Model.FieldInst Model.Circuits Model.Num Model.Boolean Model.Curve Model.Util Model.Ecc
  Spec.FieldLaws Spec.CircuitSpec Spec.NumSpec Spec.BoolSpec Spec.CurveSpec Spec.CurveLaws Spec.UtilSpec Spec.EccSpec
  Proofs.FieldGen Proofs.ZtoF Proofs.CircuitP Proofs.LcP Proofs.NumP Proofs.BoolP Proofs.UnpackP Proofs.CurveTop Proofs.ChallengeP Proofs.HonestP
  Proofs.CurveInst Proofs.UtilTop Proofs.RescueP Proofs.FpFq Proofs.EccP Proofs.EccAddP Proofs.EccMulP Proofs.EccRefP.
Import ListNotations.
Open Scope nat_scope. Open Scope list_scope. Open Scope type_scope.

Lemma base_beta0 : f_BETA = BETA_BASE Ec0. Proof. reflexivity. Qed.
Lemma base_beta1 : f_BETA = BETA_BASE Ec1. Proof. reflexivity. Qed.

Section EccTop.
  Context {C : Curve} {q vb r vs} (CL : CurveLaws C q vb r vs).
  Notation F := (Base C).
  Notation pt := (cl_point _ _ _ _ _ CL).
  Let SL : FieldLaws (Scalar C) r vs := cl_scalar _ _ _ _ _ CL.
  Let SO : OpsLaws (Scalar C) r vs := fl_ops _ _ _ SL.
  Variables (w : assignment F) (one : Var) (w_one : w one = fone).

  Lemma has_ex P A : cp_has w P A -> exists g, A = pt g /\ cp_has w P (pt g).
  Proof. intro H. destruct (cl_onto _ _ _ _ _ CL A (proj1 (proj1 H))) as (g & <-). exists g. split; [reflexivity|exact H]. Qed.
  Lemma multiple_z g k : (0 <= k)%Z -> multiple (pt g) (Z.to_nat k) (pt (zmul k g)).
  Proof. intro H. apply (multiple_top CL). rewrite Z2Nat.id by exact H. reflexivity. Qed.

  Lemma multiply_top P A bits bs : cp_has w P A -> Forall2 (bit_has w) bits bs ->
    complete w (cp_multiply one P bits) (fun R => exists D, multiple A (Z.to_nat (bits_val bs)) D /\ cp_has w R D).
  Proof.
    intros HP HB. destruct (has_ex P A HP) as (g & -> & HP'). eapply complete_weaken; [exact (multiply_scalar CL one w w_one P g bits bs HP' HB)|].
    intros R HR. eexists. split; [apply multiple_z; apply bits_val_range|exact HR].
  Qed.
  Lemma multiply_fast_top P A bits bs : cp_has w P A -> Forall2 (bit_has w) bits bs ->
    2 <= length bs -> last bs false = true -> (bits_val bs + 1 < r)%Z ->
    complete w (cp_multiply_fast one P bits) (fun R => exists D, multiple A (Z.to_nat (bits_val bs)) D /\ cp_has w R D).
  Proof.
    intros HP HB H1 H2 H3. destruct (has_ex P A HP) as (g & -> & HP').
    eapply complete_weaken; [exact (multiply_fast_scalar CL one w w_one P g bits bs HP' HB H1 H2 H3)|].
    intros R HR. cbv beta in HR. rewrite (zs_fz CL) in HR. eexists. split; [apply multiple_z; apply bits_val_range|exact HR].
  Qed.
  Lemma multiply_inv_top P A bits bs : cp_has w P A -> Forall2 (bit_has w) bits bs -> (bits_val bs mod r <> 0)%Z ->
    complete w (cp_multiply_inv one P bits) (fun R => exists D, cp_has w R D /\ multiple D (Z.to_nat (bits_val bs)) A).
  Proof.
    intros HP HB H1. destruct (has_ex P A HP) as (g & -> & HP').
    eapply complete_weaken; [exact (multiply_inv_scalar CL one w w_one P g bits bs HP' HB H1)|].
    intros R (h & HR & E). exists (pt h). split; [exact HR|]. rewrite <- E. apply multiple_z, bits_val_range.
  Qed.
  Lemma multiply_inv_fast_top P A bits bs : cp_has w P A -> Forall2 (bit_has w) bits bs ->
    2 <= length bs -> last bs false = true -> (bits_val bs + 1 < r)%Z ->
    complete w (cp_multiply_inv_fast one P bits) (fun R => exists D, cp_has w R D /\ multiple D (Z.to_nat (bits_val bs)) A).
  Proof.
    intros HP HB H1 H2 H3. destruct (has_ex P A HP) as (g & -> & HP').
    eapply complete_weaken; [exact (multiply_inv_fast_scalar CL one w w_one P g bits bs HP' HB H1 H2 H3)|].
    intros R (h & HR & E). exists (pt h). split; [exact HR|]. rewrite <- E. apply multiple_z, bits_val_range.
  Qed.

  Section Endo.
    Hypothesis HB1 : f_BETA = BETA_BASE C.
    Hypothesis HB2 : f_BETA = BETA_SCALAR C.
    Context {F1 : Field} {p1 v1} (L1 : FieldLaws F1 p1 v1).
    Lemma multiply_endo_top P A bits bs (ch : F1) (p : C) : cp_has w P A -> Forall2 (bit_has w) bits bs -> length bits = 128 ->
      (forall i, i < 128 -> nth i bs false = Z.testbit (v1 ch) (Z.of_nat i)) -> represents p A ->
      complete w (cp_multiply_endo one P bits) (fun R => exists D, represents (c_mul p (get_challenge_scalar ch)) D /\ cp_has w R D).
    Proof.
      intros HP HB HL HC Hp. destruct (has_ex P A HP) as (g & -> & HP').
      eapply complete_weaken; [exact (multiply_endo_scalar CL one w w_one HB1 HB2 P g bits bs HP' HB HL)|].
      intros R HR. eexists. split; [|exact HR].
      rewrite <- (challenge_bits (C := C) L1 ch bs); [exact (rep_mul CL p _ g Hp)| |exact HC].
      rewrite <- (UnpackP.Forall2_length _ _ _ HB). exact HL.
    Qed.
    Lemma multiply_inv_endo_top P A bits bs (ch : F1) : cp_has w P A -> Forall2 (bit_has w) bits bs -> length bits = 128 ->
      (forall i, i < 128 -> nth i bs false = Z.testbit (v1 ch) (Z.of_nat i)) ->
      complete w (cp_multiply_inv_endo one P bits) (fun R => exists D, cp_has w R D /\
        forall p : C, represents p D -> represents (c_mul p (get_challenge_scalar ch)) A).
    Proof.
      intros HP HB HL HC. destruct (has_ex P A HP) as (g & -> & HP').
      eapply complete_weaken; [exact (multiply_inv_endo_scalar CL one w w_one HB1 HB2 P g bits bs HP' HB HL)|].
      intros R (h & HR & E). exists (pt h). split; [exact HR|]. intros p Hp. rewrite <- E.
      rewrite <- (challenge_bits (C := C) L1 ch bs); [exact (rep_mul CL p _ h Hp)| |exact HC].
      rewrite <- (UnpackP.Forall2_length _ _ _ HB). exact HL.
    Qed.
  End Endo.
End EccTop.

(** ** Concrete runs *)
Lemma gen0_on : on_curve (c_b Ec0) (Some (fone, ec0_Gy)).
Proof. exact (rep_on_curve _ _ gen0_rep). Qed.
Definition gen_wires : CurvePoint Ec0 :=
  mkCP (C := Ec0) (n_from (mkNum (Some fone) (VA 2))) (n_from (mkNum (Some ec0_Gy) (VB 2))) (Is (mkBit (Some false) (VC 2))).
Definition gen_w : assignment Fq := fun v => match v with VA 1 => fone | VA 2 => fone | VB 2 => ec0_Gy | VA 3 => fone | _ => fzero end.
Definition on_wire : AllocatedBit := mkBit (Some true) (VA 3).
Lemma gen_has w : extends 4 gen_w w -> cp_has (C := Ec0) w gen_wires (Some (fone, ec0_Gy)) /\ w (VA 1) = fone /\ bit_has w on_wire true.
Proof.
  intro H. assert (W1 : w (VA 1) = fone) by (rewrite H; [reflexivity|intros k E; first [discriminate E|injection E as <-; lia]]).
  assert (W2 : w (VA 2) = fone) by (rewrite H; [reflexivity|intros k E; first [discriminate E|injection E as <-; lia]]).
  assert (W3 : w (VB 2) = ec0_Gy) by (rewrite H; [reflexivity|intros k E; first [discriminate E|injection E as <-; lia]]).
  assert (W4 : w (VC 2) = fzero) by (rewrite H; [reflexivity|intros k E; first [discriminate E|injection E as <-; lia]]).
  assert (W5 : w (VA 3) = fone) by (rewrite H; [reflexivity|intros k E; first [discriminate E|injection E as <-; lia]]).
  split; [|split; [exact W1|split; [exact W5|reflexivity]]].
  split; [split; [exact gen0_on|]|].
  - unfold gen_wires. cbn [cp_x cp_y cp_id]. rewrite !(n_from_val (cl_base _ _ _ _ _ Ec0_laws)). unfold num_val. cbn [num_var].
    split; [exact W2|]. split; [exact W3|exact W4].
  - unfold gen_wires. cbn [cp_x cp_y cp_id].
    split; [apply (n_from_ok (cl_base _ _ _ _ _ Ec0_laws)); unfold num_ok, num_val; cbn [num_value num_var]; rewrite W2; reflexivity|].
    split; [apply (n_from_ok (cl_base _ _ _ _ _ Ec0_laws)); unfold num_ok, num_val; cbn [num_value num_var]; rewrite W3; reflexivity|reflexivity].
Qed.
Lemma repeat_bits (w : assignment Fq) n : bit_has w on_wire true -> Forall2 (bit_has w) (repeat on_wire n) (repeat true n).
Proof. intro H. induction n; constructor; assumption. Qed.
Lemma bits_val_ones n : bits_val (repeat true n) = (2 ^ Z.of_nat n - 1)%Z.
Proof.
  induction n as [|n IH]; [reflexivity|]. cbn [repeat bits_val]. rewrite IH, Nat2Z.inj_succ, Z.pow_succ_r by lia. cbn [Z.b2z]. lia.
Qed.
Lemma last_ones n : last (repeat true (S n)) false = true.
Proof. induction n as [|n IH]; [reflexivity|]. exact IH. Qed.
Lemma fast_run : exists tr R w D, Exec (cp_multiply_fast (VA 1) gen_wires (repeat on_wire 254)) tr (Some (Ok R)) /\
  constraints_hold w tr /\ cp_has (C := Ec0) w R D /\ multiple (Some (fone, ec0_Gy)) (Z.to_nat (2 ^ 254 - 1)) D.
Proof.
  destruct (complete_runs (cp_multiply_fast (C := Ec0) (VA 1) gen_wires (repeat on_wire 254)) 4 gen_w
    (fun w R => exists D, multiple (Some (fone, ec0_Gy)) (Z.to_nat (bits_val (repeat true 254))) D /\ cp_has (C := Ec0) w R D))
    as (tr & R & w & H1 & H2 & H3 & D & H4 & H5).
  - intros w Hw. destruct (gen_has w Hw) as (G1 & G2 & G3).
    apply (multiply_fast_top Ec0_laws w (VA 1) G2 gen_wires _ _ _ G1 (repeat_bits w 254 G3)).
    + rewrite repeat_length. lia.
    + exact (last_ones 253).
    + rewrite bits_val_ones. reflexivity.
  - rewrite bits_val_ones in H4. exists tr, R, w, D. tauto.
Qed.
Lemma endo_run : exists tr R w D, Exec (cp_multiply_endo (VA 1) gen_wires (repeat on_wire 128)) tr (Some (Ok R)) /\
  constraints_hold w tr /\ cp_has (C := Ec0) w R D /\ represents (c_mul (c_one : Ec0) (get_challenge_scalar (@f_from_u128 Fp (2 ^ 128 - 1)))) D.
Proof.
  destruct (complete_runs (cp_multiply_endo (C := Ec0) (VA 1) gen_wires (repeat on_wire 128)) 4 gen_w
    (fun w R => exists D, represents (c_mul (c_one : Ec0) (get_challenge_scalar (@f_from_u128 Fp (2 ^ 128 - 1)))) D /\ cp_has (C := Ec0) w R D))
    as (tr & R & w & H1 & H2 & H3 & D & H4 & H5).
  - intros w Hw. destruct (gen_has w Hw) as (G1 & G2 & G3).
    apply (multiply_endo_top Ec0_laws w (VA 1) G2 base_beta0 beta0 Fp_laws gen_wires (Some (fone, ec0_Gy)) _ (repeat true 128) _ _ G1 (repeat_bits w 128 G3)).
    + apply repeat_length.
    + intros i Hi. rewrite (fl_from_u128 _ _ _ Fp_laws) by (split; [discriminate|reflexivity]).
      rewrite (RescueP.nth_repeat_lt true false 128 i Hi). change (2 ^ 128 - 1)%Z with (Z.ones 128). symmetry. apply Z.ones_spec_low. lia.
    + exact gen0_rep.
  - exists tr, R, w, D. tauto.
Qed.
