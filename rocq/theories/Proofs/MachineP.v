(** The results of the prover do not depend on the machine. *)
From Coq Require Import ZArith List Bool Arith Lia.
From Verif Require Import Lib.AbGroup Lib.Abel Model.FieldTrait Model.Circuits Model.Curve Model.Threads Model.Util Model.Rescue Model.Params Model.Opening Model.Proofs Model.Recursion Model.RecursiveProof
  Spec.FieldLaws Spec.CurveSpec Spec.CurveLaws Spec.UtilSpec Spec.MachineSpec
  Proofs.FieldGen Proofs.SumP Proofs.CurveTop Proofs.MultiexpP Proofs.FoldP Proofs.UtilTop Proofs.PolyMulP Proofs.OpeningP Proofs.ParamsP.
Import ListNotations.
Open Scope nat_scope. Open Scope list_scope.

Lemma Forall_firstn {A} (P : A -> Prop) n l : Forall P l -> Forall P (firstn n l).
Proof. intro H. rewrite <- (firstn_skipn n l) in H. apply Forall_app in H. apply H. Qed.
Section Steps.
  Context {B : Type} (R : B -> B -> Prop).
  Lemma same_bind {A} (S : A -> A -> Prop) (o o' : outcome A) k k' : same_outcome S o o' ->
    (forall a a', S a a' -> same_outcome R (k a) (k' a')) -> same_outcome R (out_bind o k) (out_bind o' k').
  Proof. intros H K. destruct o, o'; cbn in *; auto; contradiction. Qed.
  Lemma same_step {A} (o : outcome A) k k' : (forall a, same_outcome R (k a) (k' a)) -> same_outcome R (out_bind o k) (out_bind o k').
  Proof. intro K. destruct o; cbn; auto. Qed.
End Steps.
Lemma same_try {A B} (R : B -> B -> Prop) (o : outcome (res A)) k k' : (forall a, same_outcome (same_result R) (k a) (k' a)) -> same_outcome (same_result R) (out_try o k) (out_try o k').
Proof. intro K. unfold out_try. apply same_step. intros [a|e]; [apply K|reflexivity]. Qed.

Section Machine.
  Context {C : Curve} {q vb r vs} (CL : CurveLaws C q vb r vs).
  Notation G := (cl_group _ _ _ _ _ CL).
  Notation rep := (rep CL).
  Notation F := (Scalar C).
  Let SL := cl_scalar _ _ _ _ _ CL.
  Variables (M M' : Machine).
  Hypotheses (HM : machine_ok M) (HM' : machine_ok M').

  Lemma same_append (D D' : C) t : same_point D D' -> append_point t D = append_point t D'.
  Proof.
    intros (A & H & H'). unfold append_point. rewrite (proj1 (get_xy_top CL D A H)), (proj1 (get_xy_top CL D' A H')). reflexivity.
  Qed.
  Definition same_option {A} (R : A -> A -> Prop) (o o' : option A) : Prop := match o, o' with Some a, Some a' => R a a' | None, None => True | _, _ => False end.
  Lemma same_opt {A} (R : A -> A -> Prop) o o' : same_option R o o' -> same_outcome R (out_opt o) (out_opt o').
  Proof. destruct o, o'; intro H; exact H. Qed.
  Lemma gens_reps (g : list C) : Forall valid g -> exists gs, Forall2 rep g gs.
  Proof. induction 1 as [|P l HP _ (gs & H)]; [exists []; constructor|]. destruct (valid_ex CL P HP) as (h & Hh). exists (h :: gs). constructor; assumption. Qed.
  Lemma same_multiexp v (g : list C) : Forall valid g -> (Z.of_nat (length g) < 2 ^ 32)%Z -> same_option same_point (multiexp M v g) (multiexp M' v g).
  Proof.
    intros HV HZ. destruct (Nat.eq_dec (length v) (length g)) as [E|E].
    - destruct (gens_reps g HV) as (gs & HG).
      destruct (multiexp_rep CL M v g gs HM E HZ HG) as (D & -> & H). destruct (multiexp_rep CL M' v g gs HM' E HZ HG) as (D' & -> & H').
      exact (same_rep CL D D' _ _ H H' eq_refl).
    - rewrite (proj2 (multiexp_panics M v g) E), (proj2 (multiexp_panics M' v g) E). exact I.
  Qed.
  Lemma same_commit (P : Params C) v e : Forall valid (p_generators P) -> (Z.of_nat (length (p_generators P)) < 2 ^ 32)%Z -> same_option same_point (commit M P v e) (commit M' P v e).
  Proof.
    intros HV HZ. unfold commit. destruct (length v <=? length (p_generators P)); [|exact I]. unfold slice_from, slice_to.
    assert (S1 : forall n, Forall valid (skipn n (p_generators P)) /\ (Z.of_nat (length (skipn n (p_generators P))) < 2 ^ 32)%Z) by (intro n; split; [apply Forall_skipn; exact HV|rewrite skipn_length; lia]).
    assert (S2 : forall n, Forall valid (firstn n (p_generators P)) /\ (Z.of_nat (length (firstn n (p_generators P))) < 2 ^ 32)%Z) by (intro n; split; [apply Forall_firstn; exact HV|rewrite firstn_length; lia]).
    destruct e; [destruct (_ <=? _); [apply same_multiexp; apply S1|exact I]|destruct (_ <=? _); [apply same_multiexp; apply S2|exact I]].
  Qed.
  Lemma same_product (a b : list F) : multiply_polynomials M a b = multiply_polynomials M' a b.
  Proof.
    destruct (multiply_polynomials_top SL M HM a b) as [S N]. destruct (multiply_polynomials_top SL M' HM' a b) as [S' N'].
    destruct (multiply_polynomials M a b) as [x|] eqn:E.
    - destruct (multiply_polynomials M' a b) as [x'|] eqn:E'; [|discriminate (proj2 N (proj1 N' eq_refl))].
      assert (Ha : a <> []) by (intros ->; discriminate (proj2 N (or_introl eq_refl))).
      assert (Hb : b <> []) by (intros ->; discriminate (proj2 N (or_intror (or_introl eq_refl)))).
      assert (HL : (Z.of_nat (length a + length b - 1) <= 2 ^ 31)%Z).
      { apply Z.nlt_ge. intro H. discriminate (proj2 N (or_intror (or_intror H))). }
      exact (eq_trans (S Ha Hb HL) (eq_sym (S' Ha Hb HL))).
    - symmetry. apply (proj2 N'), (proj1 N). reflexivity.
  Qed.

  (** *** The inner product argument *)
  Definition same_message (m m' : message (C := C)) : Prop :=
    let '(L, R, l, r) := m in let '(L', R', l', r') := m' in same_point L L' /\ same_point R R' /\ l = l' /\ r = r'.
  Lemma same_new_message l g ab : Forall valid g -> (Z.of_nat (length g) < 2 ^ 32)%Z -> same_option same_message (new_message (C := C) M l g ab) (new_message M' l g ab).
  Proof.
    intros HV HZ. destruct ab as [a b]. unfold new_message, slice_to, slice_from.
    destruct (l <=? length a); [|exact I]. destruct (l <=? length b); [|exact I]. destruct (l <=? length g); [|exact I].
    pose proof (same_multiexp (firstn l a) (skipn l g) (Forall_skipn _ _ _ HV) ltac:(rewrite skipn_length; lia)) as X.
    pose proof (same_multiexp (skipn l a) (firstn l g) (Forall_firstn _ _ _ HV) ltac:(rewrite firstn_length; lia)) as Y.
    destruct (multiexp M (firstn l a) (skipn l g)), (multiexp M' (firstn l a) (skipn l g)); cbn in X; try contradiction; [|exact I].
    destruct (multiexp M (skipn l a) (firstn l g)), (multiexp M' (skipn l a) (firstn l g)); cbn in Y; try contradiction; [|exact I].
    destruct (compute_inner_product _ _); [|exact I]. destruct (compute_inner_product _ _); [|exact I]. cbn. auto.
  Qed.
  Lemma same_all {A B} (R : B -> B -> Prop) (f f' : A -> option B) l : (forall a, same_option R (f a) (f' a)) -> same_option (Forall2 R) (all_some (map f l)) (all_some (map f' l)).
  Proof.
    intro H. unfold all_some. induction l as [|a l IH]; cbn [map fold_right]; [constructor|]. specialize (H a). destruct (f a), (f' a); cbn in H; try contradiction; [|exact I].
    destruct (fold_right _ _ (map f l)), (fold_right _ _ (map f' l)); cbn in IH; try contradiction; [|exact I]. constructor; assumption.
  Qed.
  Lemma same_messages ms ms' : Forall2 same_message ms ms' -> forall t : Rescue (Base C),
    fold_left append_message ms t = fold_left append_message ms' t /\
    same_points (map (fun '(L, _, _, _) => L) ms) (map (fun '(L, _, _, _) => L) ms') /\ same_points (map (fun '(_, R, _, _) => R) ms) (map (fun '(_, R, _, _) => R) ms') /\
    map (fun '(_, _, l, _) => l) ms = map (fun '(_, _, l, _) => l) ms' /\ map (fun '(_, _, _, r) => r) ms = map (fun '(_, _, _, r) => r) ms'.
  Proof.
    induction 1 as [|[[[L R] l] rr] [[[L' R'] l'] rr'] ms ms' (H1 & H2 & -> & ->) _ IH]; intro t; [repeat split; constructor|].
    cbn [fold_left map]. unfold append_message at 2 4. rewrite (same_append L L' t H1), (same_append R R' _ H2).
    destruct (IH (append_scalar (append_scalar (append_point (append_point t L') R') l') rr')) as (E & A1 & A2 & A3 & A4).
    split; [exact E|]. split; [constructor; assumption|]. split; [constructor; assumption|]. split; f_equal; assumption.
  Qed.
  Record same_state (s s' : PState C) : Prop := {
    ss_transcript : s_transcript s = s_transcript s'; ss_ab : s_ab s = s_ab s'; ss_gens : s_generators s = s_generators s';
    ss_rounds : Forall2 same_round (s_rounds s) (s_rounds s'); ss_packed : s_packed s = s_packed s';
    ss_valid : Forall valid (s_generators s); ss_small : (Z.of_nat (length (s_generators s)) < 2 ^ 32)%Z }.
  Lemma same_collapse (g : list C) c ci : parallel_generator_collapse M g c ci = parallel_generator_collapse M' g c ci.
  Proof.
    destruct (Nat.lt_ge_cases (length g) 2) as [H|H]; [|rewrite !collapse_eq by assumption; reflexivity].
    rewrite (proj2 (collapse_panics M g c ci HM) H), (proj2 (collapse_panics M' g c ci HM') H). reflexivity.
  Qed.
  Lemma collapse_valid (g g' : list C) c ci : Forall valid g -> parallel_generator_collapse M g c ci = Some g' -> Forall valid g'.
  Proof.
    intros HV H. destruct (Nat.lt_ge_cases (length g) 2) as [L|L]; [rewrite (proj2 (collapse_panics M g c ci HM) L) in H; discriminate H|].
    rewrite (collapse_eq M g c ci HM L) in H. injection H as <-. apply Forall_app. split; [|apply Forall_skipn; exact HV].
    unfold halve. apply Forall_forall. intros P HP. apply in_map_iff in HP as ([x y] & <- & HI). rewrite Forall_forall in HV.
    pose proof (in_combine_l _ _ _ _ HI) as Hx. pose proof (in_combine_r _ _ _ _ HI) as Hy.
    assert (Vx : valid x) by (apply HV; rewrite <- (firstn_skipn (length g / 2) g); apply in_or_app; left; exact Hx).
    assert (Vy : valid y) by (apply HV; rewrite <- (firstn_skipn (length g / 2) g); apply in_or_app; right; exact Hy).
    destruct (valid_ex CL x Vx) as (h & Hh). destruct (valid_ex CL y Vy) as (h' & Hh').
    eapply (rep_valid CL). apply (rep_add CL); apply (rep_mul CL); eassumption.
  Qed.

  Lemma same_prove_round fuel l s s' : same_state s s' -> same_outcome same_state (prove_round M fuel l s) (prove_round M' fuel l s').
  Proof.
    intros [E1 E2 E3 E4 E5 E6 E7]. unfold prove_round. rewrite <- E1, <- E2, <- E3.
    eapply same_bind; [apply same_opt, same_all; intro ab; apply same_new_message; assumption|].
    intros ms ms' H. destruct (same_messages ms ms' H (s_transcript s)) as (T & A1 & A2 & A3 & A4). cbv zeta. rewrite <- T, <- A3, <- A4.
    apply same_step. intros [[[[[c ci] csq] pk] failed] t]. apply same_step. intro ab. rewrite <- same_collapse.
    destruct (parallel_generator_collapse M (s_generators s) c ci) as [g|] eqn:Eg; [|exact I]. cbn [out_opt out_bind same_outcome].
    pose proof (collapse_valid _ _ _ _ E6 Eg) as HV.
    assert (LG : length g <= length (s_generators s)).
    { destruct (Nat.lt_ge_cases (length (s_generators s)) 2) as [L|L]; [rewrite (proj2 (collapse_panics M _ c ci HM) L) in Eg; discriminate Eg|].
      rewrite (collapse_eq M _ c ci HM L) in Eg. assert (EI : halve (fold_point (c, ci)) (s_generators s) ++ skipn (length (s_generators s) / 2) (s_generators s) = g) by congruence. rewrite <- EI, app_length, halve_length, skipn_length.
      pose proof (Nat.div_lt (length (s_generators s)) 2 ltac:(lia) ltac:(lia)). lia. }
    constructor; cbn [s_transcript s_ab s_generators s_rounds s_packed]; try reflexivity.
    - apply Forall2_app; [exact E4|]. constructor; [|constructor]. constructor; cbn [ip_L ip_R ip_l ip_r]; (assumption || reflexivity).
    - rewrite E5. reflexivity.
    - apply Forall_firstn, HV.
    - rewrite firstn_length. lia.
  Qed.
  Lemma same_prove_rounds fuel k : forall s s', same_state s s' -> same_outcome same_state (prove_rounds M fuel k s) (prove_rounds M' fuel k s').
  Proof.
    induction k as [|k IH]; intros s s' H; [exact H|]. cbn [prove_rounds]. eapply same_bind; [apply same_prove_round; exact H|exact IH].
  Qed.
  Lemma same_new_proof fuel t is is' g k : Forall valid g -> (Z.of_nat (length g) < 2 ^ 32)%Z ->
    map (fun '(i, co) => (po_right_edge i, po_point i, co)) is = map (fun '(i, co) => (po_right_edge i, po_point i, co)) is' ->
    same_outcome (fun '(pf, pk, h, t) '(pf', pk', h', t') => same_opening pf pf' /\ pk = pk' /\ same_point h h' /\ t = t')
      (new_proof (C := C) M fuel t is g k) (new_proof M' fuel t is' g k).
  Proof.
    intros HV HZ HI. unfold new_proof.
    assert (X : forall A (f : bool * F * list F -> A), map (fun '(i, co) => f (po_right_edge i, po_point i, co)) is = map (fun '(i, co) => f (po_right_edge i, po_point i, co)) is').
    { intros A f. apply (f_equal (map f)) in HI. rewrite !map_map in HI. etransitivity; [|etransitivity; [exact HI|]]; apply map_ext; intros [? ?]; reflexivity. }
    pose proof (X _ (fun '(e, _, co) => instance_a k e co)) as X1. cbv beta iota in X1. pose proof (X _ (fun '(_, x, _) => instance_b x fone (2 ^ k))) as X2. cbv beta iota in X2.
    rewrite X1. apply same_step. intro a. cbv zeta. rewrite X2.
    eapply same_bind; [apply same_prove_rounds; constructor; try reflexivity; [constructor|exact HV|exact HZ]|].
    intros s s' [E1 E2 E3 E4 E5 E6 E7]. rewrite <- E2. apply same_step. intro a1. rewrite <- E3.
    destruct (s_generators s) as [|h [|]]; try exact I. cbn. inversion E6; subst.
    assert (SP : same_point h h) by (destruct (valid_ex CL h ltac:(assumption)) as (u & Hu); exact (same_rep CL h h u u Hu Hu eq_refl)).
    repeat split; cbn; try assumption; try reflexivity.
  Qed.

  (** *** [Proof::new] *)
  Section New.
    Context (P : Params C) (HV : Forall valid (p_generators P)) (HZ : (Z.of_nat (length (p_generators P)) < 2 ^ 32)%Z).
    Lemma commit_step {B} (R : B -> B -> Prop) v e k k' :
      (forall D D', same_point D D' -> (forall t, append_point t D' = append_point t D) -> same_outcome R (k D) (k' D')) ->
      same_outcome R (out_bind (out_opt (commit M P v e)) k) (out_bind (out_opt (commit M' P v e)) k').
    Proof.
      intro K. eapply same_bind; [apply same_opt, same_commit; assumption|]. intros D D' H. apply K; [exact H|]. intro t. symmetry. apply same_append, H.
    Qed.
    Lemma product_step {B} (R : B -> B -> Prop) (a b : list F) k k' : (forall t, same_outcome R (k t) (k' t)) ->
      same_outcome R (out_bind (out_opt (multiply_polynomials M a b)) k) (out_bind (out_opt (multiply_polynomials M' a b)) k').
    Proof. intro K. rewrite <- same_product. apply same_step, K. Qed.
    Ltac step :=
      cbv beta zeta;
      first [ apply product_step; intro
            | apply commit_step; let HA := fresh "HA" in intros ? ? ? HA; rewrite ?HA
            | apply same_try; intro
            | apply same_step; intro ];
      repeat match goal with |- same_outcome _ (let '(_, _) := ?x in _) _ => destruct x end.
    Lemma same_proof_new fuel circuit old old' : y_new old = y_new old' -> challenges_sq_packed_new old = challenges_sq_packed_new old' ->
      same_outcome (same_result (fun '(pf, L) '(pf', L') => same_proof pf pf' /\ same_leftovers L L'))
        (proof_new M fuel P circuit old) (proof_new M' fuel P circuit old').
    Proof.
      intros E1 E2. unfold proof_new. rewrite <- E1, <- E2. repeat step.
      eapply same_bind; [apply same_new_proof; [exact HV|exact HZ|reflexivity]|].
      intros [[[pf pk] g] ?] [[[pf' pk'] g'] ?] (A1 & <- & A2 & _). cbn.
      split; constructor; cbn; (assumption || reflexivity).
    Qed.
  End New.

  (** *** Leftovers *)
  Lemma same_bytes (L L' : Leftovers C) : same_leftovers L L' -> leftovers_to_bytes L = leftovers_to_bytes L'.
  Proof.
    intros [(A & H1 & H1') H2 (B & H3 & H3') H4]. unfold leftovers_to_bytes, point_bytes.
    rewrite (proj1 (get_xy_top CL _ A H1)), (proj1 (get_xy_top CL _ A H1')), (proj1 (get_xy_top CL _ B H3)), (proj1 (get_xy_top CL _ B H3')), H2, H4. reflexivity.
  Qed.
  Lemma same_eqb (D D' Q : C) : same_point D D' -> valid Q -> c_eqb D Q = c_eqb D' Q.
  Proof.
    intros (A & H & H') (B & HQ). apply eq_true_iff_eq. rewrite (cl_eqb _ _ _ _ _ CL D Q A B H HQ), (cl_eqb _ _ _ _ _ CL D' Q A B H' HQ). reflexivity.
  Qed.
  Lemma same_outcome_eq {A} (o o' : outcome A) : same_outcome eq o o' -> o = o'.
  Proof. destruct o, o'; cbn; intro H; congruence || contradiction. Qed.
  Lemma same_leftovers_verify (P : Params C) L circuit : Forall valid (p_generators P) -> (Z.of_nat (length (p_generators P)) < 2 ^ 32)%Z -> valid_leftovers L ->
    leftovers_verify M L P circuit = leftovers_verify M' L P circuit.
  Proof.
    intros HV HZ [V1 V2]. unfold leftovers_verify, out_try. apply same_outcome_eq. apply same_step. intros [sx|e]; [|reflexivity].
    eapply same_bind; [apply same_opt, same_commit; assumption|]. intros D D' HD. apply same_step. intro. cbv zeta. apply same_step. intro. apply same_step. intro.
    eapply same_bind; [apply same_opt; unfold compute_g_for_inner_product; apply same_multiexp; assumption|]. intros g g' Hg. cbn.
    rewrite (same_eqb g g' _ Hg V2), (same_eqb D D' _ HD V1). reflexivity.
  Qed.
  Lemma same_dummy (P : Params C) : Forall valid (p_generators P) -> (Z.of_nat (length (p_generators P)) < 2 ^ 32)%Z ->
    same_option same_leftovers (leftovers_dummy M P) (leftovers_dummy M' P).
  Proof.
    intros HV HZ. unfold leftovers_dummy. cbv zeta. destruct (root_challenges _) as [cs|]; [|exact I]. cbn [obind]. destruct (invert_all cs) as [[? ai]|]; [|exact I]. cbn [obind].
    unfold compute_g_for_inner_product. pose proof (same_multiexp (compute_g_coeffs_for_inner_product (unpack_challenges (repeat (f_from_u64 MAGIC : F) (p_k P))) ai) (p_generators P) HV HZ) as X.
    destruct (multiexp M _ _), (multiexp M' _ _); cbn in X; try contradiction; [|exact I]. cbn. constructor; cbn; try reflexivity; [|exact X].
    exists infinity. split; apply (cl_rep_zero _ _ _ _ _ CL).
  Qed.
End Machine.

(** The machine only matters for the commitment to the inputs. *)
Lemma verify_given {C : Curve} M M' pf L (P : Params C) circuit inputs k : proof_verify M pf L P circuit inputs (Some k) = proof_verify M' pf L P circuit inputs (Some k).
Proof. reflexivity. Qed.
Lemma same_circuit {C : Curve} P bc inner old payload fks ol (L L' : Leftovers C) D : leftovers_to_bytes L = leftovers_to_bytes L' ->
  (fun one => vc_synthesize one (mkVC P bc inner old payload fks ol (Some L) D)) = (fun one => vc_synthesize one (mkVC P bc inner old payload fks ol (Some L') D)).
Proof.
  intro E. unfold vc_synthesize. cbn [vc_params vc_base_case vc_inner vc_proof vc_new_payload vc_forkvalues vc_old_leftovers vc_new_leftovers vc_deferred]. rewrite E. reflexivity.
Qed.
Lemma same_as_circuit {E1 E2 : Curve} (cy : Cycle E1 E2) P bc inner old payload fks ol (L L' : Leftovers E2) D : leftovers_to_bytes L = leftovers_to_bytes L' ->
  as_circuit cy (mkVC P bc inner old payload fks ol (Some L) D) = as_circuit cy (mkVC P bc inner old payload fks ol (Some L') D).
Proof. intro E. unfold as_circuit. rewrite (same_circuit P bc inner old payload fks ol L L' D E). reflexivity. Qed.
Definition yields {A} (Q : A -> Prop) (o : outcome A) : Prop := forall a, o = Done a -> Q a.
Lemma y_bind {A B} (Q : B -> Prop) (o : outcome A) k : (forall a, yields Q (k a)) -> yields Q (out_bind o k).
Proof. intros H b E. destruct o as [a| |]; cbn in E; try discriminate E. exact (H a b E). Qed.
Lemma y_bind2 {A B} (S : A -> Prop) (Q : B -> Prop) (o : outcome A) k : yields S o -> (forall a, S a -> yields Q (k a)) -> yields Q (out_bind o k).
Proof. intros HS H b E. destruct o as [a| |]; cbn in E; try discriminate E. exact (H a (HS a eq_refl) b E). Qed.
Lemma y_try {A B} (Q : res B -> Prop) (o : outcome (res A)) k : (forall e, Q (Err e)) -> (forall a, yields Q (k a)) -> yields Q (out_try o k).
Proof. intros HE H. apply y_bind. intros [a|e]; [apply H|]. intros b E. injection E as <-. apply HE. Qed.
Lemma y_done {A} (Q : A -> Prop) a : Q a -> yields Q (Done a).
Proof. intros H b E. injection E as <-. exact H. Qed.
Definition leftovers_of {C : Curve} (pf : Proof_ C) (L : Leftovers C) : Prop := s_new_commitment L = pf_s_new_commitment pf /\ g_new L = mo_g (pf_inner_product pf).
Lemma verify_leftovers {C : Curve} M pf L (P : Params C) circuit inputs kc :
  yields (fun x => match x with Ok (_, l, _, _) => leftovers_of pf l | Err _ => True end) (proof_verify M pf L P circuit inputs kc).
Proof.
  unfold proof_verify.
  repeat (cbv beta zeta; first
    [ apply (y_bind2 (fun '(_, _, g, _, _) => g = mo_g (pf_inner_product pf)) _ (verify_proof _ _ _ _));
      [unfold verify_proof; repeat (apply y_bind; intro); apply y_done; reflexivity|intros [[[[? ?] ?] ?] ?] ->]
    | apply y_try; [intro; exact I|intro]
    | apply y_bind; intro ];
    repeat match goal with |- yields _ (let '(_, _) := ?x in _) => destruct x end).
  cbv zeta. apply y_done. split; reflexivity.
Qed.
Lemma inner_leftovers {E1 E2 : Curve} (cy : Cycle E1 E2) M p P1 P2 c : yields (fun x => match x with Ok (_, _, a, b, _) => leftovers_of (rp_proof p) a /\ b = rp_oldproof2 p | Err _ => True end) (verify_inner cy M p P1 P2 c).
Proof.
  unfold verify_inner. cbv zeta. apply y_bind. intro. apply y_bind. intro. apply y_bind. intros [k bits].
  eapply y_bind2; [apply verify_leftovers|]. intros [[[[w l] d] fk]|e] H; [|apply y_done; exact I].
  apply y_try; [intro; exact I|]. intro. apply y_done. split; [exact H|reflexivity].
Qed.
Lemma same_try2 {A B} (S : A -> A -> Prop) (R : B -> B -> Prop) (o o' : outcome (res A)) k k' : same_outcome (same_result S) o o' ->
  (forall a a', S a a' -> same_outcome (same_result R) (k a) (k' a')) -> same_outcome (same_result R) (out_try o k) (out_try o' k').
Proof. intros H K. unfold out_try. eapply same_bind; [exact H|]. intros [a|e] [a'|e'] HS; cbn in HS; try contradiction; [apply K, HS|exact HS]. Qed.
(** *** The recursion *)
Section Recursive.
  Context {E1 E2 : Curve} {q1 vb1 r1 vs1 q2 vb2 r2 vs2} (CL1 : CurveLaws E1 q1 vb1 r1 vs1) (CL2 : CurveLaws E2 q2 vb2 r2 vs2) (cy : Cycle E1 E2).
  Variables (M M' : Machine).
  Hypotheses (HM : machine_ok M) (HM' : machine_ok M').
  Variables (P1 : Params E1) (P2 : Params E2).
  Hypotheses (V1 : Forall valid (p_generators P1)) (Z1 : (Z.of_nat (length (p_generators P1)) < 2 ^ 32)%Z) (V2 : Forall valid (p_generators P2)) (Z2 : (Z.of_nat (length (p_generators P2)) < 2 ^ 32)%Z).
  Lemma same_verify_inner p c : valid_leftovers (rp_oldproof2 p) -> verify_inner cy M p P1 P2 c = verify_inner cy M' p P1 P2 c.
  Proof.
    intro HV. unfold verify_inner. cbv zeta. apply same_outcome_eq. apply same_step. intro. apply same_step. intro. apply same_step. intros [k bits].
    rewrite (verify_given M M').
    apply same_step. intros [[[[w l] d] fk]|e]; [|reflexivity].
    rewrite (same_leftovers_verify CL2 M M' HM HM' P2 _ _ V2 Z2 HV). apply same_step. intros [w2|e]; reflexivity.
  Qed.
  Lemma same_verify p c : valid_leftovers (rp_oldproof2 p) -> valid_new (rp_proof p) -> verify cy M p P1 P2 c = verify cy M' p P1 P2 c.
  Proof.
    intros HV HN. unfold verify. cbv zeta. rewrite (same_verify_inner p c HV).
    destruct (verify_inner cy M' p P1 P2 c) as [[[[[[w d] a] b] fk]|e]| |] eqn:E; try reflexivity. cbn [out_try out_bind].
    destruct (inner_leftovers cy M' p P1 P2 c _ E) as [Ea ->]. rewrite (same_leftovers_verify CL1 M M' HM HM' P1 a _ V1 Z1), (same_leftovers_verify CL2 M M' HM HM' P2 _ _ V2 Z2 HV); [reflexivity|].
    destruct HN as [H1 H2]. destruct Ea as [Ea Eg]. split; [rewrite Ea; exact H1|rewrite Eg; exact H2].
  Qed.
End Recursive.
Lemma same_refl {C : Curve} (P : C) : valid P -> same_point P P.
Proof. intros (A & H). exists A. split; exact H. Qed.
Section Create.
  Context {E1 E2 : Curve} {q1 vb1 r1 vs1 q2 vb2 r2 vs2} (CL1 : CurveLaws E1 q1 vb1 r1 vs1) (CL2 : CurveLaws E2 q2 vb2 r2 vs2) (cy : Cycle E1 E2).
  Variables (M M' : Machine).
  Hypotheses (HM : machine_ok M) (HM' : machine_ok M').
  Variables (P1 : Params E1) (P2 : Params E2).
  Hypotheses (V1 : Forall valid (p_generators P1)) (Z1 : (Z.of_nat (length (p_generators P1)) < 2 ^ 32)%Z) (V2 : Forall valid (p_generators P2)) (Z2 : (Z.of_nat (length (p_generators P2)) < 2 ^ 32)%Z).
  Lemma same_create fuel old c payload : (forall p, old = Some p -> valid_leftovers (rp_oldproof2 p) /\ valid_new (rp_proof p)) ->
    same_outcome (same_result same_recursive) (create_proof cy M fuel P1 P2 old c payload) (create_proof cy M' fuel P1 P2 old c payload).
  Proof.
    intro HO. unfold create_proof.
    eapply (same_try2 (fun '(d, l1, l2, fk) '(d', l1', l2', fk') => d = d' /\ same_leftovers l1 l1' /\ same_leftovers l2 l2' /\ fk = fk')).
    - destruct old as [p|].
      + destruct (HO p eq_refl) as [HV [HN HN']]. rewrite (same_verify_inner CL1 (swap cy) M M' HM HM' P2 P1 V1 Z1 p _ HV).
        destruct (verify_inner (swap cy) M' p P2 P1 (swap_circuits c)) as [[[[[[w d] a] b] fk]|e]| |] eqn:E; try exact I; [|reflexivity]. cbn.
        destruct (inner_leftovers (swap cy) M' p P2 P1 _ _ E) as [[Ea Eg] ->]. destruct HV as [HV HV'].
        split; [reflexivity|]. split; [constructor; try reflexivity; apply same_refl; rewrite ?Ea, ?Eg; assumption|]. split; [constructor; try reflexivity; apply same_refl; assumption|reflexivity].
      + apply same_step. intro d. eapply same_bind; [apply same_opt, (same_dummy CL2); assumption|]. intros l1 l1' H1.
        eapply same_bind; [apply same_opt, (same_dummy CL1); assumption|]. intros l2 l2' H2. cbn. auto.
    - intros [[[d l1] l2] fk] [[[d' l1'] l2'] fk'] (<- & H1 & H2 & <-). cbv zeta. rewrite <- (same_bytes CL1 _ _ H2).
      rewrite <- (same_as_circuit cy P2 (Some (match old with Some _ => false | None => true end)) (inner_for cy (on_scalar1 c)) (option_map (as_old_proof cy) old) payload (Some fk) (Some (leftovers_to_bytes l2)) l1 l1' (Some d) (same_bytes CL2 _ _ H1)).
      eapply same_try2; [apply (same_proof_new CL1 M M' HM HM' P1 V1 Z1); apply H2|]. intros [pf L] [pf' L'] [A _]. cbn. constructor; cbn; try reflexivity; assumption.
  Qed.
End Create.
