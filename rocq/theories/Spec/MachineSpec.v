(** Results that are the same up to the coordinates that represent their points. *)
From Coq Require Import List.
From Verif Require Import Model.FieldTrait Model.Circuits Model.Curve Model.Util Model.Params Model.Opening Model.Proofs Model.Recursion Model.RecursiveProof Spec.CurveSpec.

(** Two runs of a function: they end alike (panics are alike, and so are searches that
    did not end), with results that are [R]. *)
Definition same_outcome {A : Type} (R : A -> A -> Prop) (o o' : outcome A) : Prop :=
  match o, o' with
  | Done a, Done a' => R a a'
  | Panicked, Panicked => True
  | Running, Running => True
  | _, _ => False
  end.
Definition same_result {A : Type} (R : A -> A -> Prop) (x x' : res A) : Prop :=
  match x, x' with
  | Ok a, Ok a' => R a a'
  | Err e, Err e' => e = e'
  | _, _ => False
  end.

Section Same.
  Context {C : Curve}.
  Definition same_points : list C -> list C -> Prop := Forall2 same_point.
  Record same_round (x y : InnerProductRound C) : Prop := {
    sr_L : same_points (ip_L x) (ip_L y); sr_R : same_points (ip_R x) (ip_R y);
    sr_l : ip_l x = ip_l y; sr_r : ip_r x = ip_r y }.
  Record same_opening (x y : MultiPolynomialOpening C) : Prop := {
    so_rounds : Forall2 same_round (mo_rounds x) (mo_rounds y);
    so_a : mo_a x = mo_a y; so_g : same_point (mo_g x) (mo_g y) }.
  Record same_proof (x y : Proof_ C) : Prop := {
    sp_r_commitment : same_point (pf_r_commitment x) (pf_r_commitment y);
    sp_s_cur_commitment : same_point (pf_s_cur_commitment x) (pf_s_cur_commitment y);
    sp_t_positive_commitment : same_point (pf_t_positive_commitment x) (pf_t_positive_commitment y);
    sp_t_negative_commitment : same_point (pf_t_negative_commitment x) (pf_t_negative_commitment y);
    sp_c_commitment : same_point (pf_c_commitment x) (pf_c_commitment y);
    sp_s_new_commitment : same_point (pf_s_new_commitment x) (pf_s_new_commitment y);
    sp_rx_opening : pf_rx_opening x = pf_rx_opening y;
    sp_rxy_opening : pf_rxy_opening x = pf_rxy_opening y;
    sp_sx_old_opening : pf_sx_old_opening x = pf_sx_old_opening y;
    sp_sx_cur_opening : pf_sx_cur_opening x = pf_sx_cur_opening y;
    sp_tx_positive_opening : pf_tx_positive_opening x = pf_tx_positive_opening y;
    sp_tx_negative_opening : pf_tx_negative_opening x = pf_tx_negative_opening y;
    sp_sx_new_opening : pf_sx_new_opening x = pf_sx_new_opening y;
    sp_inner_product : same_opening (pf_inner_product x) (pf_inner_product y) }.
  Record same_leftovers (x y : Leftovers C) : Prop := {
    sl_s_new_commitment : same_point (s_new_commitment x) (s_new_commitment y);
    sl_y_new : y_new x = y_new y; sl_g_new : same_point (g_new x) (g_new y);
    sl_challenges : challenges_sq_packed_new x = challenges_sq_packed_new y }.
End Same.
Record same_recursive {E1 E2 : Curve} (x y : RecursiveProof E1 E2) : Prop := {
  sc_proof : same_proof (rp_proof x) (rp_proof y);
  sc_oldproof1 : same_leftovers (rp_oldproof1 x) (rp_oldproof1 y);
  sc_oldproof2 : same_leftovers (rp_oldproof2 x) (rp_oldproof2 y);
  sc_deferred : rp_deferred x = rp_deferred y; sc_payload : rp_payload x = rp_payload y }.
(** The points that are compared when the proof is verified are points of the curve. *)
Definition valid_leftovers {C : Curve} (l : Leftovers C) : Prop := valid (s_new_commitment l) /\ valid (g_new l).
Definition valid_new {C : Curve} (p : Proof_ C) : Prop := valid (pf_s_new_commitment p) /\ valid (mo_g (pf_inner_product p)).
