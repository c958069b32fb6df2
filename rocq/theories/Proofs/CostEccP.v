(** How many wires and constraints the gadgets of ecc.rs add. *)
From Coq Require Import String List Bool Arith ZArith Lia.
From Verif Require Import Model.FieldTrait Model.Circuits Model.Num Model.Boolean Model.Curve Model.Util Model.Ecc
  Spec.SystemSpec Spec.SizeSpec Proofs.SystemP Proofs.RecursiveSystemP Proofs.CostP.
Import ListNotations.
Open Scope list_scope. Open Scope Z_scope.

Section Ecc.
  Context {C : Curve}.
  Local Notation F := (Base C).
  Variable one : Var.
  Local Notation uses := (@uses F _).
  Local Notation CP := (CurvePoint C).

  Ltac alloc1 := lazymatch goal with
    | |- CostP.uses (bind (namespace _ (num_alloc _)) _) _ => ucall (@U_num_alloc F); intros ? ? ? ?
    | |- CostP.uses (bind (namespace _ (bit_alloc _)) _) _ => ucall (@U_bit_alloc F); intros ? ? ? ?
    | _ => ustep end.
  Ltac go := cbv zeta; repeat alloc1; try uend.

  Lemma U_witness p : uses (cp_witness one p) (upto 12 11).
  Proof. unfold cp_witness. go. Qed.
  Lemma U_cond_endo (P : CP) b : uses (cp_conditional_endo one P b) (upto 2 2).
  Proof. unfold cp_conditional_endo. go. Qed.
  Lemma U_cond_neg (P : CP) b : uses (cp_conditional_neg one P b) (upto 2 2).
  Proof. unfold cp_conditional_neg. go. Qed.
  Lemma U_add_incomplete (P Q : CP) : uses (cp_add_incomplete one P Q) (upto 8 6).
  Proof. unfold cp_add_incomplete. go. Qed.
  Lemma U_point_unwrap x y : uses (point_unwrap (C := C) x y) (upto 0 0).
  Proof. unfold point_unwrap. destruct x, y; repeat ustep; uend. Qed.
  Lemma U_get_point (P : CP) : uses (get_point_unwrap P) (upto 0 0).
  Proof. unfold get_point_unwrap. destruct (cp_get_point P); repeat ustep; uend. Qed.
  Lemma U_add (P Q : CP) : uses (cp_add one P Q) (upto 34 33).
  Proof. unfold cp_add. cbv zeta. ucall U_point_unwrap. intros ? ? ? ?. ucall U_point_unwrap. intros ? ? ? ?. go. Qed.
  Lemma U_add_cond_incomplete (P Q : CP) b : uses (cp_add_conditionally_incomplete one P Q b) (upto 14 14).
  Proof.
    unfold cp_add_conditionally_incomplete. cbv zeta. ucall U_get_point. intros p1 ? ? ?. ucall U_get_point. intros p2 ? ? ?.
    eapply (uses_bind _ _ _ (upto 0 0)); [destruct p1, p2; repeat ustep; uend|]. intros ? ? ? ?. go.
  Qed.
  Lemma U_double (P : CP) : uses (cp_double one P) (upto 12 13).
  Proof. unfold cp_double. go. Qed.
  Lemma U_daa (P Q : CP) : uses (cp_double_and_add_incomplete one P Q) (upto 12 12).
  Proof. unfold cp_double_and_add_incomplete. go. Qed.
  Lemma U_multiply_step (P Q : CP) b : uses (cp_multiply_step one P Q b) (upto 56 57).
  Proof. unfold cp_multiply_step. cbv zeta. ucall U_double. intros ? ? ? ?. ucall U_add. intros ? ? ? ?. go. Qed.
  Lemma U_multiply (P : CP) bs : uses (cp_multiply one P bs) (upto (56 * Z.of_nat (List.length bs)) (57 * Z.of_nat (List.length bs))).
  Proof.
    unfold cp_multiply. eapply uses_weaken; [apply (uses_foldM _ (fun _ => True) 56 57); [|exact I]|].
    - intros. ustep. eapply uses_weaken; [apply U_multiply_step|intros; uend].
    - cbv beta. rewrite rev_length. intros. uend.
  Qed.
  Lemma U_endo_step (P Q : CP) bs i : uses (cp_endo_step one P bs Q i) (upto 16 16).
  Proof. unfold cp_endo_step. cbv zeta. ucall U_cond_neg. intros ? ? ? ?. ucall U_daa. intros ? ? ? ?. ustep. eapply uses_weaken; [apply U_cond_endo|intros; uend]. Qed.
  Lemma U_mask s x b : uses (mask (C := C) one s x b) (upto 2 2).
  Proof. unfold mask. go. Qed.
  Lemma U_multiply_endo (P : CP) bs : uses (cp_multiply_endo one P bs) (upto 1032 1031).
  Proof.
    unfold cp_multiply_endo. ustep. ucall U_double. intros ? ? ? ?. ucall U_add_incomplete. intros ? ? ? ?.
    eapply (uses_bind _ _ _ (upto 1008 1008)).
    - eapply uses_weaken; [apply (uses_foldM _ (fun _ => True) 16 16); [|exact I]|].
      + intros. eapply uses_weaken; [apply U_endo_step|intros; uend].
      + cbv beta. rewrite seq_length. intros. uend.
    - intros ? ? ? ?. ucall U_mask. intros ? ? ? ?. ucall U_mask. intros ? ? ? ?. ustep. uend.
  Qed.
  Lemma U_inv_endo (P : CP) bs : uses (cp_multiply_inv_endo one P bs) (upto 1044 1044).
  Proof. unfold cp_multiply_inv_endo. ucall U_witness. intros ? ? ? ?. ucall U_multiply_endo. intros ? ? ? ?. go. Qed.
End Ecc.
