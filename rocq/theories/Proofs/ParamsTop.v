(** The parameters on the two curves, and instances for the examples. *)
From Coq Require Import ZArith List Bool Arith Lia.
From Verif Require Import Model.FieldTrait Model.FieldInst Model.Circuits Model.Curve Model.Threads Model.Util Model.Params
  Spec.FieldSpec Spec.FieldLaws Spec.CircuitSpec Spec.CurveSpec Spec.CurveLaws Spec.UtilSpec Spec.SystemSpec
  Proofs.FieldGen Proofs.FpFq Proofs.CurveInst Proofs.CurveTop Proofs.UtilTop Proofs.EccTop Proofs.SystemP Proofs.ParamsP Proofs.ExampleP.
Import ListNotations.
Open Scope nat_scope.
Open Scope list_scope.

Lemma z_one0 bs (Q : Ec0) : c_from_bytes bs = Some Q -> let '(_, _, z) := c_get_xyz Q in z = fone \/ c_to_bytes Q = repeat 0%Z 32.
Proof. exact (pt_from_bytes_one Fq Fp ec0_B ec0_3B ec0_Gy _ _ (fl_ops _ _ _ Fq_laws) bs Q). Qed.
Lemma z_one1 bs (Q : Ec1) : c_from_bytes bs = Some Q -> let '(_, _, z) := c_get_xyz Q in z = fone \/ c_to_bytes Q = repeat 0%Z 32.
Proof. exact (pt_from_bytes_one Fp Fq ec1_B ec1_3B ec1_Gy _ _ (fl_ops _ _ _ Fp_laws) bs Q). Qed.

(** random bytes that give the generator of the curve every time *)
Definition gen_bytes (i j : nat) : list Z := c_to_bytes (c_one : Ec0).
Lemma gen_bytes_random i j : random (gen_bytes i j).
Proof. exact (cl_encode_shape _ _ _ _ _ Ec0_laws _ _ gen0_rep). Qed.
Lemma gen_found i : exists Q xy, find_generator (C := Ec0) 1 (gen_bytes i) 0 = Done (Q, xy).
Proof.
  unfold gen_bytes. cbn [find_generator]. destruct (cl_decode_encode _ _ _ _ _ Ec0_laws _ _ gen0_rep) as (Q & E & HQ). rewrite E.
  pose proof (z_one0 _ _ E) as HZ. destruct (c_get_xyz Q) as [[x y] z] eqn:EQ. destruct HZ as [->|HZ].
  - rewrite (feqb_refl (fl_ops _ _ _ Fq_laws)). eauto.
  - exfalso. assert (EZ : c_to_bytes (c_zero : Ec0) = repeat 0%Z 32).
    { change (pt_to_bytes Fq (pt_zero Fq) = repeat 0%Z 32). unfold pt_to_bytes, pt_is_zero. cbn [pz pt_zero].
      unfold is_zero. rewrite (feqb_refl (fl_ops _ _ _ Fq_laws)). reflexivity. }
    destruct (cl_decode_encode _ _ _ _ _ Ec0_laws _ _ HQ) as (Q1 & E1 & H1).
    destruct (cl_decode_encode _ _ _ _ _ Ec0_laws _ _ (cl_rep_zero _ _ _ _ _ Ec0_laws)) as (Q2 & E2 & H2).
    assert (Q1 = Q2) as -> by congruence. pose proof (represents_fun Ec0_laws _ _ _ H1 H2) as X. discriminate X.
Qed.
Lemma join_ok {A B} (f : A -> outcome B) (l : list A) : (forall a, exists b, f a = Done b) -> exists bs, join_all (map f l) = Done bs.
Proof.
  intro H. induction l as [|a l [bs IH]]; cbn [map join_all]; [eauto|]. destruct (H a) as [b ->]. rewrite IH. eauto.
Qed.
Lemma params_exist k : 3 < k -> exists P, params_new (C := Ec0) gen_bytes 1 k = Done P.
Proof.
  intro Hk. unfold params_new. rewrite (proj2 (Nat.ltb_lt _ _)) by exact Hk.
  destruct (join_ok (fun i => find_generator (C := Ec0) 1 (gen_bytes i) 0) (seq 0 (2 ^ k))) as [bs E].
  { intro i. destruct (gen_found i) as (Q & xy & E). eauto. }
  cbv zeta. rewrite E. cbn [out_bind]. eauto.
Qed.

Theorem commit_any C r : halo_curve C r -> forall M, machine_ok M ->
  forall (P : Params C) As, Forall2 CurveSpec.represents (p_generators P) As -> (Z.of_nat (length (p_generators P)) < 2 ^ 32)%Z ->
  forall (v : list (Scalar C)) (right_edge : bool), length v <= length (p_generators P) ->
  let offset := if right_edge then length (p_generators P) - length v else 0 in
  (exists D A, commit M P v right_edge = Some D /\ CurveSpec.represents D A /\
     sum_of_multiples v (firstn (length v) (skipn offset As)) A) /\
  (forall x, compute_opening P v x right_edge = Some (fsum (fun i => fmul (coeff v i) (fpow x (offset + i))) (length v))).
Proof.
  intros H M HM P As HG HZ v edge HL. cbv zeta.
  assert (HZ' : (Z.of_nat (length (p_generators P)) < 2 ^ 64)%Z). { eapply Z.lt_trans; [exact HZ|]. reflexivity. }
  destruct H.
  - exact (conj (commit_top Ec0_laws M P As v edge HM HG HZ HL) (fun x => opening_top Ec0_laws P v x edge HZ' HL)).
  - exact (conj (commit_top Ec1_laws M P As v edge HM HG HZ HL) (fun x => opening_top Ec1_laws P v x edge HZ' HL)).
Qed.
Theorem sx_sy_any C r : halo_curve C r -> forall (P : Params C) circuit s, laid_out false circuit s -> l_gates s <= p_n P ->
  forall (x xi y : Scalar C) Q, fmul x xi = fone ->
  exists sx sy, compute_sx P circuit y = Done (Ok sx) /\ compute_sy P circuit x (p_n P) Q = Done (Ok sy) /\
    length sx = 3 * p_n P + 1 /\ length sy = S (length (l_lcs s)) /\
    eval_at sx x = fmul (fpow x (p_n P)) (s_value (p_n P) (l_lcs s) x xi y) /\ eval_at sy y = s_value (p_n P) (l_lcs s) x xi y.
Proof.
  intros H P circuit s HL HN x xi y Q Hx.
  assert (T : (forall y, exists sx, compute_sx P circuit y = Done (Ok sx) /\ length sx = 3 * p_n P + 1 /\
       forall x xi, fmul x xi = fone -> eval_at sx x = fmul (fpow x (p_n P)) (s_value (p_n P) (l_lcs s) x xi y)) /\
    (forall x xi Q, fmul x xi = fone -> exists sy, compute_sy P circuit x (p_n P) Q = Done (Ok sy) /\
       length sy = S (length (l_lcs s)) /\ forall y, eval_at sy y = s_value (p_n P) (l_lcs s) x xi y)).
  { destruct H; [exact (sx_sy_top Ec0_laws P circuit s HL HN)|exact (sx_sy_top Ec1_laws P circuit s HL HN)]. }
  destruct T as [T1 T2]. destruct (T1 y) as (sx & E1 & L1 & V1). destruct (T2 x xi Q Hx) as (sy & E2 & L2 & V2).
  exists sx, sy. split; [exact E1|]. split; [exact E2|]. split; [exact L1|]. split; [exact L2|]. split; [exact (V1 x xi Hx)|exact (V2 y)].
Qed.
