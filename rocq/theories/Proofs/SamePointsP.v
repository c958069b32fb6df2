(** Verification does not depend on the coordinates that represent points. *)
From Coq Require Import ZArith List Bool Arith Lia.
From Verif Require Import Lib.AbGroup Lib.Abel Model.FieldTrait Model.Circuits Model.Curve Model.Threads Model.Util Model.Rescue Model.Params Model.Opening Model.Proofs Model.Recursion Model.RecursiveProof
  Spec.FieldLaws Spec.CurveSpec Spec.CurveLaws Spec.UtilSpec Spec.MachineSpec
  Proofs.FieldGen Proofs.SumP Proofs.CurveTop Proofs.MultiexpP Proofs.FoldP Proofs.UtilTop Proofs.OpeningP Proofs.ParamsP Proofs.MachineP.
Import ListNotations.
Open Scope nat_scope. Open Scope list_scope.

Section Points.
  Context {C : Curve} {q vb r vs} (CL : CurveLaws C q vb r vs).
  Notation rep := (rep CL).
  Notation F := (Scalar C).
  Lemma same_reps (D D' : C) : same_point D D' -> exists g, rep D g /\ rep D' g.
  Proof. intros (A & H & H'). destruct (rep_ex CL D A H) as (g & -> & Hg). exists g. split; [exact Hg|exact H']. Qed.
  Lemma same_add (D D' E E' : C) : same_point D D' -> same_point E E' -> same_point (c_add D E) (c_add D' E').
  Proof. intros H K. destruct (same_reps _ _ H) as (g & A & A'), (same_reps _ _ K) as (h & B & B'). exact (same_rep CL _ _ _ _ (rep_add CL _ _ _ _ A B) (rep_add CL _ _ _ _ A' B') eq_refl). Qed.
  Lemma same_mul (D D' : C) s : same_point D D' -> same_point (c_mul D s) (c_mul D' s).
  Proof. intro H. destruct (same_reps _ _ H) as (g & A & A'). exact (same_rep CL _ _ _ _ (rep_mul CL _ s _ A) (rep_mul CL _ s _ A') eq_refl). Qed.
  Lemma same_eqb2 (D D' E E' : C) : same_point D D' -> same_point E E' -> c_eqb D E = c_eqb D' E'.
  Proof.
    intros (A & H & H') (B & K & K'). apply eq_true_iff_eq. rewrite (cl_eqb _ _ _ _ _ CL D E A B H K), (cl_eqb _ _ _ _ _ CL D' E' A B H' K'). reflexivity.
  Qed.
  Lemma Forall2_len {A B} (R : A -> B -> Prop) l l' : Forall2 R l l' -> length l = length l'.
  Proof. induction 1; cbn; congruence. Qed.
  Lemma same_nth (l l' : list C) : same_points l l' -> forall j, same_option same_point (nth_error l j) (nth_error l' j).
  Proof. induction 1 as [|x y l l' H _ IH]; intros [|j]; try exact I; [exact H|apply IH]. Qed.
  Lemma same_round_messages m (x y : InnerProductRound C) : same_round x y -> same_option (Forall2 (same_message (C := C))) (round_messages m x) (round_messages m y).
  Proof.
    intros [H1 H2 H3 H4]. unfold round_messages. apply same_all. intro j. rewrite <- H3, <- H4.
    pose proof (same_nth _ _ H1 j) as A. pose proof (same_nth _ _ H2 j) as B.
    destruct (nth_error (ip_L x) j), (nth_error (ip_L y) j); cbn in A; try contradiction; [|exact I].
    destruct (nth_error (ip_R x) j), (nth_error (ip_R y) j); cbn in B; try contradiction; [|exact I].
    destruct (nth_error (ip_l x) j); [|exact I]. destruct (nth_error (ip_r x) j); [|exact I]. cbn. auto.
  Qed.
  Record same_v (s s' : VState C) : Prop := {
    sv_t : v_transcript s = v_transcript s'; sv_p : same_points (v_p s) (v_p s'); sv_v : v_v s = v_v s';
    sv_c : v_challenges s = v_challenges s'; sv_ci : v_challenges_inv s = v_challenges_inv s'; sv_pk : v_packed s = v_packed s'; sv_f : v_forks s = v_forks s' }.
  Lemma same_next_p (ps ps' : list C) ms ms' a b : same_points ps ps' -> Forall2 (same_message (C := C)) ms ms' ->
    same_points (map (fun '(p, (L, R, _, _)) => c_add (c_add p (c_mul L a)) (c_mul R b)) (combine ps ms))
                (map (fun '(p, (L, R, _, _)) => c_add (c_add p (c_mul L a)) (c_mul R b)) (combine ps' ms')).
  Proof.
    intro H. revert ms ms'. induction H as [|p p' ps ps' Hp _ IH]; intros ms ms' [|[[[L R] l] rr] [[[L' R'] l'] rr'] ms1 ms1' (A & B & _) K]; cbn; try constructor.
    - apply same_add; [apply same_add; [exact Hp|apply same_mul, A]|apply same_mul, B].
    - apply IH, K.
  Qed.
  Lemma same_next_v (v : list F) ms ms' a b : Forall2 (same_message (C := C)) ms ms' ->
    map (fun '(v, (_, _, l, r)) => fadd (fadd v (fmul l a)) (fmul r b)) (combine v ms) = map (fun '(v, (_, _, l, r)) => fadd (fadd v (fmul l a)) (fmul r b)) (combine v ms').
  Proof.
    intro H. revert v. induction H as [|[[[L R] l] rr] [[[L' R'] l'] rr'] ms ms' (_ & _ & -> & ->) _ IH]; intros [|x v]; cbn; try reflexivity. f_equal. apply IH.
  Qed.
  Lemma same_verify_round m s s' x y : same_v s s' -> same_round x y -> same_outcome same_v (verify_round m s x) (verify_round m s' y).
  Proof.
    intros [E1 E2 E3 E4 E5 E6 E7] H. unfold verify_round. rewrite <- E1, <- E3, <- E4, <- E5, <- E6, <- E7.
    eapply same_bind; [apply same_opt, same_round_messages, H|]. intros ms ms' HM. cbv zeta. destruct (same_messages CL ms ms' HM (v_transcript s)) as (T & _). rewrite <- T.
    apply same_step. intros [[[[[c ci] csq] pk] failed] t]. cbn. constructor; cbn; try reflexivity; [apply same_next_p; assumption|apply same_next_v, HM].
  Qed.
  Lemma same_verify_rounds m xs ys : Forall2 same_round xs ys -> forall s s', same_v s s' -> same_outcome same_v (verify_rounds m s xs) (verify_rounds m s' ys).
  Proof.
    induction 1 as [|x y xs ys H _ IH]; intros s s' HS; [exact HS|]. cbn [verify_rounds]. eapply same_bind; [apply same_verify_round; eassumption|exact IH].
  Qed.
  Lemma same_final s s' (g g' : C) : v_challenges s = v_challenges s' -> v_challenges_inv s = v_challenges_inv s' -> same_point g g' ->
    forall is is' ps ps' v a, map po_point is = map po_point is' -> same_points ps ps' -> verify_final s g is ps v a = verify_final s' g' is' ps' v a.
  Proof.
    intros E1 E2 Hg. induction is as [|i is IH]; intros [|i' is'] ps ps' v a EI HP; try discriminate EI; [reflexivity|].
    cbn [map] in EI. assert (EP : po_point i = po_point i') by congruence. assert (ER : map po_point is = map po_point is') by congruence.
    destruct HP as [|p p' ps ps' Hp HP]; [reflexivity|]. destruct v as [|x v]; [reflexivity|]. cbn [verify_final]. rewrite EP, E1, E2.
    destruct (compute_b _ _ _) as [b|]; [|reflexivity]. cbn [out_opt out_bind]. destruct a as [|a0 a]; [reflexivity|].
    rewrite (same_eqb2 p p' (c_mul g a0) (c_mul g' a0) Hp (same_mul _ _ _ Hg)). rewrite (IH is' ps ps' v a ER HP). reflexivity.
  Qed.
  Lemma same_verify_proof (x y : MultiPolynomialOpening C) t is is' k : same_opening x y -> same_points (map po_commitment is) (map po_commitment is') ->
    map po_opening is = map po_opening is' -> map po_point is = map po_point is' ->
    same_outcome (fun '(b, pk, g, fk, t) '(b', pk', g', fk', t') => b = b' /\ pk = pk' /\ same_point g g' /\ fk = fk' /\ t = t') (verify_proof x t is k) (verify_proof y t is' k).
  Proof.
    intros [H1 H2 H3] A1 A2 A3. unfold verify_proof. rewrite <- (Forall2_len _ _ _ H1). apply same_step. intros _.
    assert (EL : length is = length is') by (apply (f_equal (@length _)) in A3; rewrite !map_length in A3; exact A3). rewrite <- EL.
    eapply same_bind; [apply same_verify_rounds; [exact H1|constructor; cbn; try reflexivity; assumption]|].
    intros s s' [E1 E2 E3 E4 E5 E6 E7]. rewrite <- E3, <- H2, (same_final s s' _ _ E4 E5 H3 is is' _ _ (v_v s) (mo_a x) A3 E2). apply same_step. intro b. cbn. auto.
  Qed.
  Lemma same_combine z : forall (l l' : list C) D D', same_points l l' -> same_point D D' -> same_point (combine_commitments z D l) (combine_commitments z D' l').
  Proof. intros l l' D D' H. revert D D'. induction H as [|x y l l' H _ IH]; intros D D' HD; [exact HD|]. cbn. apply IH, same_add; [apply same_mul, HD|exact H]. Qed.
  Lemma same_valid1 (D D' : C) : same_point D D' -> valid D.
  Proof. intros (A & H & _). exists A. exact H. Qed.
  Lemma same_proof_verify M x y L L' (P : Params C) circuit inputs k : same_proof x y -> same_leftovers L L' -> valid k ->
    same_outcome (same_result (fun '(b, l, d, fk) '(b', l', d', fk') => b = b' /\ same_leftovers l l' /\ d = d' /\ fk = fk'))
      (proof_verify M x L P circuit inputs (Some k)) (proof_verify M y L' P circuit inputs (Some k)).
  Proof.
    intros [P1 P2 P3 P4 P5 P6 R1 R2 R3 R4 R5 R6 R7 HI] [L1 L2 L3 L4] Hk. unfold proof_verify.
    rewrite <- R1, <- R2, <- R3, <- R4, <- R5, <- R6, <- R7, <- L2, <- L4.
    apply same_try. intro im. apply same_step. intro ex. apply same_step. intros _. cbv zeta. apply same_step. intro ky. cbn [out_bind].
    rewrite <- (same_append CL _ _ (append_point rescue_new k) P1). apply same_step. intros [yc t1].
    rewrite <- (same_append CL _ _ t1 P2), <- (same_append CL _ _ _ P3), <- (same_append CL _ _ _ P4). apply same_step. intros [X t2].
    rewrite <- (same_append CL _ _ t2 P5). apply same_step. intros [yn t3].
    rewrite <- (same_append CL _ _ t3 P6). apply same_step. intro kyo. apply same_step. intro co. apply same_step. intros [coi ai]. apply same_step. intro gx. apply same_step. intros [z t4].
    eapply same_bind.
    - apply same_verify_proof; [exact HI| |reflexivity|reflexivity]. cbn [map po_commitment].
      repeat constructor; try assumption; [apply same_combine; [repeat constructor; assumption|assumption]|apply same_add; [assumption|apply same_mul, same_refl, Hk]].
    - intros [[[[b pk] g] fk] t5] [[[[b' pk'] g'] fk'] t5'] (-> & -> & Hg & -> & ->).
      repeat (apply same_step; intro; try match goal with a : (_ * _)%type |- _ => destruct a end).
      cbn. repeat split; cbn; auto.
  Qed.
  Lemma same_leftovers_verify2 M (HM : machine_ok M) (P : Params C) L L' circuit : Forall valid (p_generators P) -> (Z.of_nat (length (p_generators P)) < 2 ^ 32)%Z -> same_leftovers L L' ->
    leftovers_verify M L P circuit = leftovers_verify M L' P circuit.
  Proof.
    intros HV HZ [L1 L2 L3 L4]. unfold leftovers_verify, out_try. rewrite <- L2, <- L4. apply same_outcome_eq. apply same_step. intros [sx|e]; [|reflexivity].
    eapply same_bind; [apply same_opt, (same_commit CL M M HM HM); assumption|]. intros s0 s0' HS. cbv zeta. apply same_step. intros _. apply same_step. intro roots. apply same_step. intro ai.
    unfold compute_g_for_inner_product.
    eapply same_bind; [apply same_opt, (same_multiexp CL M M HM HM); assumption|]. intros g0 g0' HG.
    cbn. rewrite (same_eqb2 _ _ _ _ HS L1), (same_eqb2 _ _ _ _ HG L3). reflexivity.
  Qed.
End Points.
Lemma bit_inputs_valid {C : Curve} {q vb r vs} (CL : CurveLaws C q vb r vs) bits : forall (K : C) gens K' ins, valid K -> Forall valid gens -> bit_inputs K gens bits = Some (K', ins) -> valid K'.
Proof.
  induction bits as [|b bits IH]; intros K gens K' ins HK HG H; cbn [bit_inputs] in H.
  - assert (K = K') as <- by congruence. exact HK.
  - destruct (if b then option_map (c_add K) (hd_error gens) else Some K) as [K1|] eqn:E1; [|discriminate H]. cbn [obind] in H.
    destruct (bit_inputs K1 (tl gens) bits) as [[K2 rest]|] eqn:E2; [|discriminate H]. cbn [obind] in H. assert (K2 = K') as <- by congruence.
    refine (IH K1 (tl gens) K2 rest _ _ E2); [|destruct HG; [constructor|assumption]].
    destruct b; [|assert (K = K1) as <- by congruence; exact HK]. destruct HG as [|g gens Hg HG]; [discriminate E1|]. cbn in E1. assert (c_add K g = K1) as <- by congruence.
    exact (same_valid1 _ _ (same_add CL _ _ _ _ (same_refl _ HK) (same_refl _ Hg))).
Qed.
Section Verify.
  Context {E1 E2 : Curve} {q1 vb1 r1 vs1 q2 vb2 r2 vs2} (CL1 : CurveLaws E1 q1 vb1 r1 vs1) (CL2 : CurveLaws E2 q2 vb2 r2 vs2) (cy : Cycle E1 E2).
  Context (M : Machine) (HM : machine_ok M) (P1 : Params E1) (P2 : Params E2).
  Context (V1 : Forall valid (p_generators P1)) (Z1 : (Z.of_nat (length (p_generators P1)) < 2 ^ 32)%Z) (V2 : Forall valid (p_generators P2)) (Z2 : (Z.of_nat (length (p_generators P2)) < 2 ^ 32)%Z).
  Lemma same_points_inner p p' c : same_recursive p p' ->
    same_outcome (same_result (fun '(w, d, a, b, fk) '(w', d', a', b', fk') => w = w' /\ d = d' /\ same_leftovers a a' /\ same_leftovers b b' /\ fk = fk'))
      (verify_inner cy M p P1 P2 c) (verify_inner cy M p' P1 P2 c).
  Proof.
    intros [S1 S2 S3 S4 S5]. unfold verify_inner. cbv zeta. rewrite <- S5, <- S4, <- (same_bytes CL1 _ _ S2), <- (same_bytes CL2 _ _ S3).
    destruct (nth_error (p_generators P1) 1) as [K|] eqn:EK; [|exact I]. cbn [out_opt out_bind].
    destruct (slice_from (p_generators P1) 2) as [gens|] eqn:EG; [|exact I]. cbn [out_opt out_bind].
    assert (HK : valid K) by (rewrite Forall_forall in V1; exact (V1 K (nth_error_In _ _ EK))).
    assert (HG : Forall valid gens) by (unfold slice_from in EG; destruct (2 <=? length (p_generators P1)); [|discriminate EG]; assert (skipn 2 (p_generators P1) = gens) as <- by congruence; apply Forall_skipn; exact V1).
    match goal with |- context [bit_inputs K gens ?B] => destruct (bit_inputs K gens B) as [[k ins]|] eqn:EB end; [|exact I]. cbn [out_opt out_bind].
    pose proof (bit_inputs_valid CL1 _ _ _ _ _ HK HG EB) as Hk.
    eapply same_try2; [apply (same_proof_verify CL1); assumption|].
    intros [[[w l] d] fk] [[[w' l'] d'] fk'] (-> & HL & -> & ->). rewrite <- (same_leftovers_verify2 CL2 M HM P2 _ _ _ V2 Z2 S3).
    apply same_try. intro w2. cbn. auto.
  Qed.
  Lemma same_points_verify p p' c : same_recursive p p' -> verify cy M p P1 P2 c = verify cy M p' P1 P2 c.
  Proof.
    intro H. pose proof (same_points_inner p p' c H) as HI. destruct H as [S1 S2 S3 S4 S5]. unfold verify. cbv zeta. rewrite <- S5, <- S4.
    destruct (verify_inner cy M p P1 P2 c) as [[[[[[w d] a] b] fk]|e]| |], (verify_inner cy M p' P1 P2 c) as [[[[[[w' d'] a'] b'] fk']|e']| |]; cbn in HI; try contradiction; try reflexivity; [|rewrite HI; reflexivity].
    destruct HI as (-> & -> & HA & HB & _). cbn [out_try out_bind].
    rewrite <- (same_leftovers_verify2 CL1 M HM P1 _ _ _ V1 Z1 HA), <- (same_leftovers_verify2 CL2 M HM P2 _ _ _ V2 Z2 HB). reflexivity.
  Qed.
End Verify.
