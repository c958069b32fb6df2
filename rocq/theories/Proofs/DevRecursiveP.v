(** The recursive circuit under dev::is_satisfied. *)
From Coq Require Import String List Bool Arith ZArith Lia.
From Verif Require Import Model.FieldTrait Model.Circuits Model.Num Model.Boolean Model.Curve Model.Threads Model.Util Model.Rescue Model.Params
  Model.Opening Model.Proofs Model.Recursion Model.RecursiveProof Model.Dev Model.DevRecursive
  Spec.FieldLaws Spec.CircuitSpec Spec.BoolSpec Spec.SystemSpec Spec.CurveSpec Spec.CurveLaws Spec.UtilSpec Spec.ProofSpec Spec.RecursionSpec Spec.RecursiveCircuitSpec Spec.UniformSpec Spec.ChainSpec Spec.DevSpec
  Proofs.FpFq Proofs.CurveInst Proofs.AlikeGadgetsP Proofs.CircuitP Proofs.DriverP Proofs.DriverTop Proofs.AlikeP Proofs.AlikeLayoutP Proofs.AlikeRecursionP Proofs.RecursiveSystemP Proofs.TidyP Proofs.CountP Proofs.CountLayoutP Proofs.ChallengeP Proofs.VerifierTopP Proofs.IsSatP Proofs.ChainP
  Properties.ProverProps Properties.RecursiveCircuitProps Properties.RecursiveSystemProps.
Import ListNotations.
Open Scope nat_scope. Open Scope list_scope.
Local Notation length := List.length.

Section Behaved.
  Context {F : Field}.
  Lemma var_dec (x y : Var) : {x = y} + {x <> y}.
  Proof. decide equality; apply Nat.eq_dec. Defined.
  Definition upd (w : assignment F) x v : assignment F := fun y => if var_dec x y then v else w y.
  Lemma upd_same w x v : upd w x v x = v.
  Proof. unfold upd. destruct (var_dec x x); congruence. Qed.
  Lemma upd_other w x v y : x <> y -> upd w x v y = w y.
  Proof. unfold upd. destruct (var_dec x y); congruence. Qed.

  (** no run that records [w] panics *)
  Definition calm {A} (w : assignment F) (p : Prog F A) : Prop := forall tr, Exec p tr None -> ~ witnessed w tr.
  Lemma behaved {A} (p : CS F A) : forall vars d w, tidy d p -> (forall V : Var -> Prop, (forall x, In x vars -> V x) -> tame V p) ->
    (forall w', (forall x, In x vars -> w' x = w x) -> calm w' p) -> well_behaved vars d p.
  Proof.
    assert (HC : forall (w : assignment F) ev tr, recorded w ev -> witnessed w tr -> witnessed w (ev :: tr)) by (intros; constructor; assumption).
    induction p as [a| |s v k IH|s v k IH|lc k IH|s v k IH|n k IH|k IH]; intros vars d w HT HV HP; cbn [well_behaved tidy] in *.
    - exact I.
    - apply (HP w (fun _ _ => eq_refl) []); constructor.
    - destruct HT as [Hs HT]. split; [exact Hs|]. destruct v as [v|e].
      + intros x Hx. apply (IH _ _ _ (upd w x v)).
        * apply HT.
        * intros V H. apply (HV V); [|apply H; left; reflexivity]. intros y Hy. apply H. right. exact Hy.
        * intros w' Hw tr HE HW. apply (HP w') with (tr := EvAlloc x (Some v) :: tr).
          -- intros y Hy. rewrite (Hw y (or_intror Hy)). apply upd_other. intros <-. exact (Hx Hy).
          -- apply ExAlloc_run, HE.
          -- apply HC; [|exact HW]. cbn [recorded]. rewrite (Hw x (or_introl eq_refl)). apply upd_same.
      + apply (IH _ _ _ w); [apply HT|intros V H; apply fails_tame, (proj1 (HV V H))|].
        intros w' Hw tr HE HW. apply (HP w' Hw (EvErr e :: tr)); [apply ExAlloc_err, HE|apply HC; [exact I|exact HW]].
    - destruct HT as [Hs HT]. split; [exact Hs|]. destruct v as [v|e].
      + intros x Hx. apply (IH _ _ _ (upd w x v)).
        * apply HT.
        * intros V H. apply (HV V); [|apply H; left; reflexivity]. intros y Hy. apply H. right. exact Hy.
        * intros w' Hw tr HE HW. apply (HP w') with (tr := EvInput x (Some v) :: tr).
          -- intros y Hy. rewrite (Hw y (or_intror Hy)). apply upd_other. intros <-. exact (Hx Hy).
          -- apply ExInput_run, HE.
          -- apply HC; [|exact HW]. cbn [recorded]. rewrite (Hw x (or_introl eq_refl)). apply upd_same.
      + apply (IH _ _ _ w); [apply HT|intros V H; apply fails_tame, (proj1 (HV V H))|].
        intros w' Hw tr HE HW. apply (HP w' Hw (EvErr e :: tr)); [apply ExInput_err, HE|apply HC; [exact I|exact HW]].
    - split.
      + pose proof (proj1 (HV (fun x => In x vars) (fun _ H => H))) as H. exact H.
      + apply (IH _ _ w HT); [intros V H; apply (HV V H)|].
        intros w' Hw tr HE HW. apply (HP w' Hw (EvLC lc :: tr)); [apply ExLC, HE|apply HC; [exact I|exact HW]].
    - destruct HT as [Hs HT]. split; [exact Hs|]. destruct v as [[[va vb] vc]|e].
      + intros a b c HN Ha Hb Hc. apply (IH _ _ _ (upd (upd (upd w c vc) b vb) a va)).
        * apply HT.
        * intros V H. apply (HV V); [|apply H; left; reflexivity|apply H; right; left; reflexivity|apply H; right; right; left; reflexivity].
          intros y Hy. apply H. right. right. right. exact Hy.
        * assert (N1 : a <> b /\ a <> c /\ b <> c).
          { inversion HN as [|? ? X1 X2]; subst. inversion X2 as [|? ? X3 X4]; subst. cbn in X1, X3. repeat split; intro; subst; tauto. }
          destruct N1 as (N1 & N2 & N3).
          intros w' Hw tr HE HW. apply (HP w') with (tr := EvMul a b c (Some (va, vb, vc)) :: tr).
          -- intros y Hy. rewrite (Hw y) by (right; right; right; exact Hy). rewrite !upd_other; [reflexivity|..]; intros <-; contradiction.
          -- apply ExMul_run, HE.
          -- apply HC; [|exact HW]. cbn [recorded]. rewrite (Hw a), (Hw b), (Hw c) by (cbn; tauto).
             rewrite upd_same. rewrite (upd_other _ a), upd_same by congruence. rewrite (upd_other _ a), (upd_other _ b), upd_same by congruence. auto.
      + apply (IH _ _ _ w); [apply HT|intros V H; apply fails_tame, (proj1 (HV V H))|].
        intros w' Hw tr HE HW. apply (HP w' Hw (EvErr e :: tr)); [apply ExMul_err, HE|apply HC; [exact I|exact HW]].
    - apply (IH _ _ w (proj2 HT) HV). intros w' Hw tr HE HW. exact (HP w' Hw tr (ExPush _ _ _ _ HE) HW).
    - destruct d as [|d]; [destruct HT|]. exists d. split; [reflexivity|].
      apply (IH _ _ w HT HV). intros w' Hw tr HE HW. exact (HP w' Hw tr (ExPop _ _ _ HE) HW).
  Qed.
  Lemma complete_calm {A} (w : assignment F) (p : CS F A) Q : complete w p Q -> calm w p.
  Proof. intros H tr HE HW. destruct (H tr None HE HW) as (a & E & _). discriminate E. Qed.

  (** public inputs of an execution *)
  Lemma fails_no_inputs {A} (p : CS F A) : fails p -> forall tr r, Exec p tr r -> input_vars tr = [].
  Proof. intro H. induction H; intros tr r HE; inversion HE; subst; eauto. Qed.
  Lemma alike_no_input_vars {A B} (V : Var -> Prop) (R : A -> B -> Prop) (p : CS F A) (q : CS F B) : (forall x, V x) -> alike False V R p q ->
    forall tr r, Exec p tr r -> input_vars tr = [].
  Proof.
    intros HV H. induction H as [a b HR|p q HF|q|ann v k ann' v' k' He Hk IH|ann v k ann' v' k' Hi He Hk IH|lc k k' HL Hk IH|ann v k ann' v' k' He Hk IH|n n' k k' Hk IH|k k' Hk IH];
      intros tr r HE; try (exact (fails_no_inputs _ HF _ _ HE)); try contradiction; inversion HE; subst; cbn [input_vars]; eauto using fails_no_inputs.
  Qed.
  Lemma one_input (w : assignment F) s b tr r : Exec (namespace s (bit_alloc_input_unchecked (Ok b))) tr (Some (Ok r)) -> witnessed w tr ->
    map w (input_vars tr) = [f_from_bool b] /\ bit_value r = Some b.
  Proof.
    intros HE HW. apply exec_namespace in HE. unfold bit_alloc_input_unchecked, alloc_input, bind in HE. cbn [pbind rbind] in HE.
    inversion HE as [| | | | | |? ? ? x c tr' r' H|? f ? x tr' r' H|? e ? tr' r' H|? ? e ? tr' r' H| | | | | | |]; subst.
    - inversion HW as [|? ? H1 H2]; subst. destruct H1.
    - cbn in H. inversion H; subst. inversion HW as [|? ? H1 H2]; subst. cbn in *. rewrite H1. split; reflexivity.
    - inversion HW as [|? ? H1 H2]; subst. destruct H1.
  Qed.
End Behaved.
  Lemma many_inputs {C : Curve} (w : assignment (Base C)) s bs : forall tr l, Exec (input_bits (C := C) s bs) tr (Some (Ok l)) -> witnessed w tr ->
    map w (input_vars tr) = map f_from_bool bs /\ map bit_value l = map Some bs.
  Proof.
    intros tr l HE. unfold input_bits in HE. apply exec_namespace in HE. revert tr l HE.
    induction bs as [|b bs IH]; intros tr l HE HW; cbn [mapM] in HE.
    - inversion HE; subst. split; reflexivity.
    - apply exec_pbind in HE. destruct HE as [(t1 & t2 & [a|e] & -> & H1 & H2)|(_ & E)]; [|inversion H2|discriminate E].
      apply Forall_app in HW. destruct HW as [W1 W2]. destruct (one_input w _ _ _ _ H1 W1) as [E1 E2].
      apply exec_pbind in H2. destruct H2 as [(t3 & t4 & [l'|e] & -> & H3 & H4)|(_ & E)]; [|inversion H4|discriminate E].
      inversion H4; subst. apply Forall_app in W2. destruct W2 as [W3 _]. destruct (IH _ _ H3 W3) as [E3 E4].
      rewrite app_nil_r, input_vars_app, map_app, E1, E3. cbn [map app]. rewrite E2, E4. split; reflexivity.
  Qed.

Section Circuit.
  Context {C : Curve} {q vb r vs} (CL : CurveLaws C q vb r vs) (HD : forall k, 2 <= k -> exists D : Deferred (Base C), deferred_dummy k = Some D).
  Notation F := (Base C).
  Variables (self : VerificationCircuit C) (ok : list bool -> Prop).
  Hypotheses (SH : shaped self) (HU : uniform ok (vc_inner self)) (HOk : ok (in_payload self)) (Hk : 2 <= p_k (vc_params self))
    (HG : good_generators (vc_params self)) (HS : starts_well (vc_params self)).
  Lemma exec_inputs (w : assignment F) tr : Exec (vc_synthesize (VA 1) self) tr (Some (Ok tt)) -> witnessed w tr ->
    map w (input_vars tr) = map f_from_bool (in_payload self ++ in_old self ++ in_new self ++ in_deferred self).
  Proof.
    rewrite synthesize_split. intros HE HW.
    apply exec_pbind in HE. destruct HE as [(t1 & u1 & [pb|e] & -> & H1 & HE)|(_ & E)]; [|inversion HE|discriminate E]. apply Forall_app in HW. destruct HW as [W1 HW].
    apply exec_pbind in HE. destruct HE as [(t2 & u2 & [l1|e] & -> & H2 & HE)|(_ & E)]; [|inversion HE|discriminate E]. apply Forall_app in HW. destruct HW as [W2 HW].
    apply exec_pbind in HE. destruct HE as [(t3 & u3 & [l2|e] & -> & H3 & HE)|(_ & E)]; [|inversion HE|discriminate E]. apply Forall_app in HW. destruct HW as [W3 HW].
    apply exec_pbind in HE. destruct HE as [(t4 & u4 & [d|e] & -> & H4 & HE)|(_ & E)]; [|inversion HE|discriminate E]. apply Forall_app in HW. destruct HW as [W4 HW].
    destruct (many_inputs w _ _ _ _ H1 W1) as [E1 V1]. destruct (many_inputs w _ _ _ _ H2 W2) as [E2 _].
    destruct (many_inputs w _ _ _ _ H3 W3) as [E3 _]. destruct (many_inputs w _ _ _ _ H4 W4) as [E4 _].
    assert (HR : forall l, Forall2 (same_bit (fun _ => True)) l l) by (intro l; apply Forall2_same; intros; split; [reflexivity|exact I]).
    pose proof (alike_no_input_vars (fun _ => True) (fun _ _ => True) _ _ (fun _ => I)
      (tails CL HD self self ok SH SH eq_refl eq_refl HU HOk Hk HG HS False (fun _ => True) (VA 1) I _ _ _ _ _ _ _ _ (HR pb) (HR l1) (HR l2) (HR d) V1) _ _ HE) as E5.
    rewrite !input_vars_app, !map_app, E1, E2, E3, E4, E5. cbn [map]. rewrite app_nil_r. reflexivity.
  Qed.
  Lemma circuit_behaved : (forall one ob nb, tidy 0 (inner_synthesize (vc_inner self) one ob nb)) ->
    (forall w, w (VA 1) = fone -> complete w (vc_synthesize (VA 1) self) (fun _ => True)) ->
    well_behaved [VA 1] 0 (vc_synthesize (VA 1) self).
  Proof.
    intros HT HCm. apply (behaved _ _ _ (fun _ => fone)).
    - apply T_vc_synthesize. intros. apply HT.
    - intros V HV. eapply alike_tame. apply (circuits_alike CL HD self self ok SH SH eq_refl eq_refl eq_refl HU HOk Hk HG HS V (VA 1)). apply HV. left. reflexivity.
    - intros w Hw. apply (complete_calm w _ (fun _ => True)), HCm. apply Hw. left. reflexivity.
  Qed.
  Lemma circuit_is_satisfied : (forall one ob nb, tidy 0 (inner_synthesize (vc_inner self) one ob nb)) ->
    (forall w, w (VA 1) = fone -> complete w (vc_synthesize (VA 1) self) (fun _ => True)) ->
    is_satisfied (fun one => vc_synthesize one self) (map f_from_bool (in_payload self ++ in_old self ++ in_new self ++ in_deferred self)) = Some SatTrue.
  Proof.
    intros HT HCm. apply (is_satisfied_honest _ _ (cl_base _ _ _ _ _ CL)).
    - exact (circuit_behaved HT HCm).
    - exact HCm.
    - intros tr w HE HW. exact (exec_inputs w tr HE HW).
  Qed.
End Circuit.

Section Inner.
  Context {C : Curve} {q vb r vs} (CL : CurveLaws C q vb r vs).
  Notation F := (Base C).
  (** one step of an execution that succeeds, records [w] and satisfies its constraints *)
  Lemma run_bind {A B} (w : assignment F) (m : CS F A) (f : A -> CS F B) tr b : Exec (bind m f) tr (Some (Ok b)) -> witnessed w tr -> constraints_hold w tr ->
    exists t1 t2 a, Exec m t1 (Some (Ok a)) /\ witnessed w t1 /\ constraints_hold w t1 /\ Exec (f a) t2 (Some (Ok b)) /\ witnessed w t2 /\ constraints_hold w t2.
  Proof.
    intros HE HW HC. apply exec_pbind in HE. destruct HE as [(t1 & t2 & [a|e] & -> & H1 & H2)|(_ & E)]; [|inversion H2|discriminate E].
    apply Forall_app in HW. apply Forall_app in HC. exists t1, t2, a. tauto.
  Qed.
  Lemma run_skip {A B} (w : assignment F) (m : CS F A) (f : A -> CS F B) b (P : Prop) :
    (forall a tr, Exec (f a) tr (Some (Ok b)) -> witnessed w tr -> constraints_hold w tr -> P) ->
    forall tr, Exec (bind m f) tr (Some (Ok b)) -> witnessed w tr -> constraints_hold w tr -> P.
  Proof. intros H tr HE HW HC. destruct (run_bind w m f tr b HE HW HC) as (t1 & t2 & a & _ & _ & _ & X). apply (H a t2); tauto. Qed.
  Lemma run_keep {A B} (w : assignment F) (m : CS F A) (Q : A -> Prop) (f : A -> CS F B) b (P : Prop) : complete w m Q ->
    (forall a, Q a -> forall tr, Exec (f a) tr (Some (Ok b)) -> witnessed w tr -> constraints_hold w tr -> P) ->
    forall tr, Exec (bind m f) tr (Some (Ok b)) -> witnessed w tr -> constraints_hold w tr -> P.
  Proof.
    intros HQ H tr HE HW HC. destruct (run_bind w m f tr b HE HW HC) as (t1 & t2 & a & H1 & H2 & _ & X).
    destruct (HQ t1 _ H1 H2) as (a' & Ea & _ & Ha). injection Ea as <-. apply (H a Ha t2); tauto.
  Qed.
  Lemma inner_runs (self : VerificationCircuit C) (w : assignment F) one tr : Exec (vc_synthesize one self) tr (Some (Ok tt)) -> witnessed w tr -> constraints_hold w tr ->
    exists ob nb tr', Forall2 (bit_has w) ob (w_payload self) /\ Forall2 (bit_has w) nb (in_payload self) /\
      Exec (inner_synthesize (vc_inner self) one ob nb) tr' (Some (Ok tt)) /\ witnessed w tr' /\ constraints_hold w tr'.
  Proof.
    revert tr. set (P := exists ob nb tr', _). rewrite synthesize_split.
    eapply run_keep; [exact (H_inputs CL w _ _)|]. intros pb Hpb. do 3 (apply run_skip; intro). unfold vc_tail, vc_tail_with. cbv zeta.
    do 5 (apply run_skip; intro). apply run_skip; intros [gx gy].
    assert (HO : complete w (match vc_proof self with
                   | Some p => witness_bits "old_payload" (bytes_bits (op_payload p))
                   | None => witness_bits "base_payload" (base_payload (vc_inner self)) end) (fun l => Forall2 (bit_has w) l (w_payload self))).
    { unfold w_payload. destruct (vc_proof self); exact (H_bits CL one w _ _). }
    eapply run_keep; [exact HO|]. intros ob Hob. do 11 (apply run_skip; intro).
    intros tr HE HW HC. apply exec_namespace in HE. exists ob, pb, tr. auto.
  Qed.
End Inner.

(** *** Over the scalar field of the other curve *)
Lemma input_elements_bits (F : Field) bytes : input_elements F bytes = map of_bit (flat_map byte_bits bytes).
Proof.
  unfold input_elements. induction bytes as [|b bytes IH]; [reflexivity|]. cbn [flat_map]. rewrite map_app, IH. f_equal.
  unfold byte_bits. rewrite map_map. apply map_ext. intro i. rewrite land_one by lia. destruct (Z.testbit b (Z.of_nat i)); reflexivity.
Qed.
Section CastDev.
  Context {C : Curve} {r : Z} (HC : halo_curve C r).
  Notation circuit H vc := (cast (P := fun F => Var -> CS F unit) H (fun one => vc_synthesize one vc)).
  Lemma cast_is_satisfied {G : Field} (H : Base C = G) (inner : RecursiveCircuit G) (vc : VerificationCircuit C) ok lb L D :
    vc_inner vc = cast (P := RecursiveCircuit) (eq_sym H) inner -> (forall one ob nb, tidy 0 (inner_synthesize inner one ob nb)) ->
    vc_old_leftovers vc = Some lb -> vc_new_leftovers vc = Some L -> vc_deferred vc = Some D ->
    shaped vc -> uniform ok (vc_inner vc) -> ok (flat_map byte_bits (vc_new_payload vc)) -> 2 <= p_k (vc_params vc) -> good_generators (vc_params vc) -> starts_well (vc_params vc) ->
    (forall w : assignment (Base C), w (VA 1) = fone -> complete w (vc_synthesize (VA 1) vc) (fun _ => True)) ->
    is_satisfied (circuit H vc) (input_elements G (vc_new_payload vc ++ lb ++ leftovers_to_bytes L ++ deferred_to_bytes D)) = Some SatTrue.
  Proof.
    destruct H. cbn [cast eq_rect eq_sym]. intros EI HT E1 E2 E3 SH HU HOk Hk HG HS HCm. rewrite input_elements_bits.
    assert (X : forall q vb vs (CL : CurveLaws C q vb r vs) (HD : forall k, 2 <= k -> exists D : Deferred (Base C), deferred_dummy k = Some D),
      is_satisfied (fun one => vc_synthesize one vc) (map of_bit (flat_map byte_bits (vc_new_payload vc ++ lb ++ leftovers_to_bytes L ++ deferred_to_bytes D))) = Some SatTrue).
    { intros q vb vs CL HD.
      assert (HT' : forall one ob nb, tidy 0 (inner_synthesize (vc_inner vc) one ob nb)) by (rewrite EI; exact HT).
      rewrite <- (circuit_is_satisfied CL HD vc ok SH HU HOk Hk HG HS HT' HCm). f_equal.
      unfold in_payload, in_old, in_new, in_deferred, bytes_bits. rewrite E1, E2, E3, !flat_map_app.
      apply map_ext. intro b. symmetry. exact (BoolP.fb_of_bit (cl_base _ _ _ _ _ CL) b). }
    pose proof (dummy_exists C r HC) as HD. destruct HC; [exact (X _ _ _ Ec0_laws HD)|exact (X _ _ _ Ec1_laws HD)].
  Qed.
  (** what a satisfied run shows *)
  Lemma cast_only_if {G : Field} (H : Base C = G) (inner : RecursiveCircuit G) (vc : VerificationCircuit C) inputs :
    vc_inner vc = cast (P := RecursiveCircuit) (eq_sym H) inner -> is_satisfied (circuit H vc) inputs = Some SatTrue ->
    exists (w : assignment G) ob nb tr, w (VA 1) = fone /\
      Forall2 (bit_has w) ob (match vc_proof vc with Some p => flat_map byte_bits (op_payload p) | None => base_payload inner end) /\
      Forall2 (bit_has w) nb (flat_map byte_bits (vc_new_payload vc)) /\
      Exec (inner_synthesize inner (VA 1) ob nb) tr (Some (Ok tt)) /\ witnessed w tr /\ constraints_hold w tr.
  Proof.
    destruct H. cbn [cast eq_rect eq_sym]. intros EI E.
    assert (X : forall q vb vs (CL : CurveLaws C q vb r vs), exists (w : assignment (Base C)) ob nb tr, w (VA 1) = fone /\
      Forall2 (bit_has w) ob (match vc_proof vc with Some p => flat_map byte_bits (op_payload p) | None => base_payload inner end) /\
      Forall2 (bit_has w) nb (flat_map byte_bits (vc_new_payload vc)) /\
      Exec (inner_synthesize inner (VA 1) ob nb) tr (Some (Ok tt)) /\ witnessed w tr /\ constraints_hold w tr).
    { intros q vb vs CL. destruct (IsSatP.is_satisfied_spec (cl_base _ _ _ _ _ CL) _ _ _ E) as (tr & rr & w & HE & _ & HW & H1 & V).
      cbn [verdict] in V. destruct V as (-> & HCs & _).
      destruct (inner_runs CL vc w (VA 1) tr HE HW HCs) as (ob & nb & tr' & A1 & A2 & A3 & A4 & A5).
      exists w, ob, nb, tr'. rewrite <- EI. unfold w_payload, in_payload, bytes_bits in *. auto 10. }
    destruct HC; [exact (X _ _ _ Ec0_laws)|exact (X _ _ _ Ec1_laws)].
  Qed.
End CastDev.

Section DevMain.
  Context {E1 E2 : Curve} {r1 r2 : Z} (H1 : halo_curve E1 r1) (H2 : halo_curve E2 r2) (cy : Cycle E1 E2).
  Variables (P1 : Params E1) (P2 : Params E2) (c : BothCircuits E1 E2) (len : nat) (ok : list bool -> Prop).
  Hypothesis HR : ready cy P1 P2 c len ok.
  Hypothesis HT : forall one ob nb, tidy 0 (inner_synthesize (on_scalar1 c) one ob nb).
  Theorem dev_first M payload : machine_ok M -> can_start M P1 P2 c len ok payload -> recursive_is_satisfied cy M P1 P2 None c payload = Done SatTrue.
  Proof.
    intros HM (HL & HAc & HRg). pose proof (rk cy P1 P2 c len ok HR) as (Ek & Hk & Hn1 & Hn2). pose proof HR as (_ & [HP1 _ _ _ HB _] & [HP2 _ HS _ _ _]).
    destruct (blank1 H2 cy P1 P2 c len ok HR _ HL) as (t1 & T1 & _). destruct (blank2 H1 cy P1 P2 c len ok HR _ HL) as (t2 & T2).
    destruct (C49_dummy_leftovers E1 r1 H1 M M HM HM P1 _ t1 HP1 Hn1 T1) as (l2 & El2 & Hl2 & _).
    destruct (C49_dummy_leftovers E2 r2 H2 M M HM HM P2 _ t2 HP2 Hn2 T2) as (l1 & El1 & Hl1 & _).
    destruct (C49_dummy_deferred E2 r2 H2 (p_k P2) (proj1 Hk)) as (D & ED & HD).
    destruct (dummy_exists E2 r2 H2 (p_k P2) (proj1 Hk)) as (OD & EOD).
    destruct (dummy_smalls E2 r2 H2 _ D ED) as (D1 & D2 & D3). destruct (HRg l2 OD El2 EOD) as (B & HBc).
    unfold recursive_is_satisfied. rewrite ED. cbn [out_opt out_bind]. rewrite El1. cbn [out_opt out_bind]. rewrite El2. cbn [out_opt out_bind].
    cbn [vc_params vc_inner vc_proof vc_new_payload vc_forkvalues vc_old_leftovers vc_new_leftovers vc_deferred].
    set (vc := mkVC _ _ _ _ _ _ _ _ _).
    assert (SH : shaped vc).
    { constructor; cbn [vc vc_proof vc_forkvalues vc_old_leftovers vc_new_leftovers vc_deferred vc_params].
      - discriminate.
      - intros fs E. injection E as <-. rewrite repeat_length. lia.
      - intros l E. injection E as <-. rewrite (lengths_top E1 r1 H1). destruct Hl2 as (-> & _). lia.
      - intros l E. injection E as <-. apply Hl1.
      - intros D0 E. injection E as <-. split; assumption. }
    assert (HCm : forall w : assignment (Base E2), w (VA 1) = fone -> complete w (vc_synthesize (VA 1) vc) (fun _ => True)).
    { intros w w1. eapply (C58_base E2 r2 H2 (VA 1) w w1 vc (leftovers_to_bytes l2) l1 D (repeat 0 (p_k P2)) OD B); try reflexivity; cbn [vc vc_params vc_inner vc_new_payload]; try assumption.
      - apply (gens2 cy P1 P2 c len ok HR).
      - lia.
      - unfold inner_for. rewrite cast_payload. exact HBc.
      - apply repeat_length.
      - apply Forall_forall. intros x Hx. apply repeat_spec in Hx. lia.
      - apply Hl1.
      - intros ob nb Ho Hn. unfold inner_for in *. rewrite cast_payload in Ho. exact (cast_accepts (cyc_base2 cy) _ _ _ HAc w (VA 1) w1 ob nb Ho Hn). }
    unfold as_circuit. change payload with (vc_new_payload vc).
    rewrite (cast_is_satisfied H2 (cyc_base2 cy) (on_scalar1 c) vc ok (leftovers_to_bytes l2) l1 D eq_refl HT eq_refl eq_refl eq_refl SH (inner1 cy P1 P2 c len ok HR) (proj2 HL) (proj1 Hk) (gens2 cy P1 P2 c len ok HR) HS HCm).
    reflexivity.
  Qed.
  Theorem dev_next M old payload : machine_ok M -> ripe (swap cy) P2 P1 (swap_circuits c) len ok old -> can_continue P2 c len ok old payload ->
    recursive_is_satisfied cy M P1 P2 (Some old) c payload = Done SatTrue.
  Proof.
    intros HM [O1 O2 O3 O4 O5 O6 O7 O8 O9 O10 O11 _] (HL & HAc & (B & HBc)). rewrite (swap_cycle cy P1 P2 c len ok HR), (swap_both cy P1 P2 c len ok HR) in O3.
    pose proof (rk cy P1 P2 c len ok HR) as (Ek & Hk & Hn1 & Hn2). pose proof HR as (_ & [HP1 _ _ _ HB _] & [HP2 _ HS _ _ _]).
    destruct (O11 M HM) as (K & L' & D & forks & E & HK & HL' & HD & HX). specialize (HK B HBc).
    destruct (verified_small K (p_k P2) _ _ L' D forks O10 (proj1 O2) O4 HX) as (X1 & X2 & X3 & X4 & X5 & X6 & X7).
    destruct (C58_verified E2 r2 H2 K (p_k P2) _ _ L' D forks O10 HX) as (Y1 & Y2).
    destruct (cast_deferred (cyc_base2 cy) (rp_deferred old) (p_k P2)) as (Z1 & Z2 & Z3 & Z4 & Z5). cbv zeta in *.
    unfold recursive_is_satisfied. rewrite E. cbn [out_bind].
    cbn [vc_params vc_inner vc_proof vc_new_payload vc_forkvalues vc_old_leftovers vc_new_leftovers vc_deferred].
    set (vc := mkVC _ _ _ _ _ _ _ _ _).
    assert (SH : shaped vc).
    { constructor; cbn [vc vc_proof vc_forkvalues vc_old_leftovers vc_new_leftovers vc_deferred vc_params vc_inner].
      - intros p Ep. injection Ep as <-. unfold as_old_proof. cbn [op_payload op_proof op_oldproof1 op_deferred]. unfold inner_for. rewrite cast_payload, HB, (proj1 O1), Z3, Z4, O7, O8.
        split; [reflexivity|]. split; [exact Y1|]. split; [apply O2|]. split; assumption.
      - intros fs Ef. injection Ef as <-. lia.
      - intros l El. injection El as <-. rewrite (lengths_top E1 r1 H1). destruct O3 as (-> & _). lia.
      - intros l El. injection El as <-. exact X2.
      - intros D0 E0. injection E0 as <-. split; assumption. }
    assert (HCm : forall w : assignment (Base E2), w (VA 1) = fone -> complete w (vc_synthesize (VA 1) vc) (fun _ => True)).
    { intros w w1. eapply (C58_step E2 r2 H2 (VA 1) w w1 vc (as_old_proof cy old) (leftovers_to_bytes (rp_oldproof2 old)) L' D forks K B); try reflexivity;
        cbn [vc vc_params vc_inner vc_new_payload as_old_proof op_payload op_proof op_oldproof1 op_deferred]; try assumption.
      - apply (gens2 cy P1 P2 c len ok HR).
      - lia.
      - rewrite Z1. unfold proof_bits in HBc. rewrite !flat_map_app in HBc. exact HBc.
      - apply O2.
      - congruence.
      - congruence.
      - apply Z5, O9.
      - rewrite Z2, <- Ek. exact O6.
      - intros ob nb Ho Hn. exact (cast_accepts (cyc_base2 cy) _ _ _ HAc w (VA 1) w1 ob nb Ho Hn). }
    unfold as_circuit. change payload with (vc_new_payload vc).
    rewrite (cast_is_satisfied H2 (cyc_base2 cy) (on_scalar1 c) vc ok (leftovers_to_bytes (rp_oldproof2 old)) L' D eq_refl HT eq_refl eq_refl eq_refl SH (inner1 cy P1 P2 c len ok HR) (proj2 HL) (proj1 Hk) (gens2 cy P1 P2 c len ok HR) HS HCm).
    reflexivity.
  Qed.
End DevMain.

Theorem dev_only_if {E1 E2 : Curve} {r2} (H2 : halo_curve E2 r2) (cy : Cycle E1 E2) M (P1 : Params E1) (P2 : Params E2) old (c : BothCircuits E1 E2) payload :
  recursive_is_satisfied cy M P1 P2 old c payload = Done SatTrue ->
  exists (w : assignment (Scalar E1)) ob nb tr, w (VA 1) = fone /\
    Forall2 (bit_has w) ob (match old with Some p => flat_map byte_bits (rp_payload p) | None => base_payload (on_scalar1 c) end) /\
    Forall2 (bit_has w) nb (flat_map byte_bits payload) /\
    Exec (inner_synthesize (on_scalar1 c) (VA 1) ob nb) tr (Some (Ok tt)) /\ witnessed w tr /\ constraints_hold w tr.
Proof.
  unfold recursive_is_satisfied. intro E.
  assert (X : forall vc inputs, vc_inner vc = inner_for cy (on_scalar1 c) -> out_opt (is_satisfied (as_circuit cy vc) inputs) = Done SatTrue ->
    exists (w : assignment (Scalar E1)) ob nb tr, w (VA 1) = fone /\
      Forall2 (bit_has w) ob (match vc_proof vc with Some p => flat_map byte_bits (op_payload p) | None => base_payload (on_scalar1 c) end) /\
      Forall2 (bit_has w) nb (flat_map byte_bits (vc_new_payload vc)) /\
      Exec (inner_synthesize (on_scalar1 c) (VA 1) ob nb) tr (Some (Ok tt)) /\ witnessed w tr /\ constraints_hold w tr).
  { intros vc inputs EI E0. apply (cast_only_if H2 (cyc_base2 cy) (on_scalar1 c) vc inputs EI). unfold as_circuit in E0.
    destruct (is_satisfied _ inputs) as [s|]; [|discriminate E0]. cbn [out_opt] in E0. injection E0 as ->. reflexivity. }
  destruct old as [old|].
  - destruct (verify_inner _ _ _ _ _ _) as [[[[[[b D] l1] l2] forks]|e]| |]; cbn [out_bind] in E; try discriminate E.
    apply X in E; [exact E|reflexivity].
  - destruct (deferred_dummy (p_k P2)) as [D|]; [|discriminate E]. cbn [out_opt out_bind] in E.
    destruct (leftovers_dummy M P2) as [l1|]; [|discriminate E]. cbn [out_opt out_bind] in E.
    destruct (leftovers_dummy M P1) as [l2|]; [|discriminate E]. cbn [out_opt out_bind] in E.
    apply X in E; [exact E|reflexivity].
Qed.
Theorem dev_error {E1 E2 : Curve} (cy : Cycle E1 E2) M (P1 : Params E1) (P2 : Params E2) old (c : BothCircuits E1 E2) payload e :
  verify_inner (swap cy) M old P2 P1 (swap_circuits c) = Done (Err e) -> recursive_is_satisfied cy M P1 P2 (Some old) c payload = Done (SatErr (SynthesisErr e)).
Proof. intro E. unfold recursive_is_satisfied. rewrite E. reflexivity. Qed.

(** *** recursive_constraint_count *)
Section CastCount.
  Context {C : Curve} {r : Z} (HC : halo_curve C r).
  Notation circuit H vc := (cast (P := fun F => Var -> CS F unit) H (fun one => vc_synthesize one vc)).
  Notation blank P inner payload := (mkVC P None inner None payload None None None None).
  Lemma cast_count {G : Field} (H : Base C = G) (inner : RecursiveCircuit G) (P : Params C) payload t :
    (forall one ob nb, tidy 0 (inner_synthesize inner one ob nb)) ->
    laid_out false (circuit H (blank P (cast (P := RecursiveCircuit) (eq_sym H) inner) payload)) t ->
    exists m c, constraint_count (circuit H (blank P (cast (P := RecursiveCircuit) (eq_sym H) inner) payload)) = Some (Ok m) /\ find_count "" m = Some c /\
      total_mults c = l_gates t /\ total_lcs c = length (l_lcs t).
  Proof.
    destruct H. cbn [cast eq_rect eq_sym]. intros HT HL. apply count_layout; [|exact HL]. apply T_vc_synthesize. intros. apply HT.
  Qed.
  Lemma cast_counted {G : Field} (H : Base C = G) (inner : RecursiveCircuit G) (P : Params C) ok payload m :
    (forall one ob nb, tidy 0 (inner_synthesize inner one ob nb)) -> uniform ok inner -> ok (flat_map byte_bits payload) ->
    2 <= p_k P -> good_generators P -> starts_well P ->
    constraint_count (circuit H (blank P (cast (P := RecursiveCircuit) (eq_sym H) inner) payload)) = Some (Ok m) ->
    exists t, laid_out false (circuit H (blank P (cast (P := RecursiveCircuit) (eq_sym H) inner) payload)) t.
  Proof.
    destruct H. cbn [cast eq_rect eq_sym]. intros HT HU HOk Hk HG HS. apply counted_layout.
    - apply T_vc_synthesize. intros. apply HT.
    - set (vc := blank P inner payload). assert (SH : shaped vc) by (constructor; discriminate). intros V HV.
      pose proof (dummy_exists C r HC) as HD. destruct HC.
      + exact (alike_tame _ _ _ _ _ (circuits_alike Ec0_laws HD vc vc ok SH SH eq_refl eq_refl eq_refl HU HOk Hk HG HS V (VA 1) HV)).
      + exact (alike_tame _ _ _ _ _ (circuits_alike Ec1_laws HD vc vc ok SH SH eq_refl eq_refl eq_refl HU HOk Hk HG HS V (VA 1) HV)).
  Qed.
End CastCount.

Section CountMain.
  Context {E1 E2 : Curve} {r2 : Z} (H2 : halo_curve E2 r2) (cy : Cycle E1 E2).
  Variables (P1 : Params E1) (P2 : Params E2) (c : BothCircuits E1 E2) (len : nat) (ok : list bool -> Prop).
  Hypotheses (HU : uniform ok (on_scalar1 c)) (HT : forall one ob nb, tidy 0 (inner_synthesize (on_scalar1 c) one ob nb))
    (Hk : 2 <= p_k P2) (HG : good_generators P2) (HS : starts_well P2).
  Lemma count_same payload payload' m n t : payload_ok len ok payload -> payload_ok len ok payload' ->
    recursive_constraint_count cy P2 c payload = Some (Ok m) -> find_count "" m = Some n ->
    laid_out false (step_circuit cy P2 c payload') t -> total_mults n = l_gates t /\ total_lcs n = length (l_lcs t).
  Proof.
    intros HP HP' E En HL. unfold step_circuit, as_circuit, blank_circuit, inner_for in HL.
    destruct (cast_blank H2 (cyc_base2 cy) P2 _ len ok payload' payload t HP' HP (cast_uniform _ _ _ HU) Hk HG HS HL) as (t' & HL' & S1 & S2 & _).
    destruct (cast_count (cyc_base2 cy) (on_scalar1 c) P2 payload t' HT HL') as (m' & n' & E' & En' & X1 & X2).
    unfold recursive_constraint_count, as_circuit, inner_for in E. cbv zeta in E. rewrite E in E'. injection E' as <-. rewrite En in En'. injection En' as <-.
    rewrite S1, S2. split; assumption.
  Qed.
  Lemma count_exists payload m n : payload_ok len ok payload ->
    recursive_constraint_count cy P2 c payload = Some (Ok m) -> find_count "" m = Some n ->
    exists t, laid_out false (step_circuit cy P2 c payload) t /\ total_mults n = l_gates t /\ total_lcs n = length (l_lcs t).
  Proof.
    intros HP E En. destruct (cast_counted H2 (cyc_base2 cy) (on_scalar1 c) P2 ok payload m HT HU (proj2 HP) Hk HG HS E) as (t & HL).
    exists t. split; [exact HL|]. exact (count_same payload payload m n t HP HP E En HL).
  Qed.
  Lemma count_decides payload m n : good_params P1 -> Forall2 (fun G xy => represents G (Some xy)) (p_generators P1) (p_generators_xy P1) -> starts_well P1 ->
    length (base_payload (on_scalar1 c)) = 8 * len -> payload_ok len ok payload ->
    recursive_constraint_count cy P2 c payload = Some (Ok m) -> find_count "" m = Some n ->
    (half_ready cy P1 P2 c len ok <-> total_mults n < p_n P1 /\ total_lcs n < p_d P1).
  Proof.
    intros HP1 HA HS1 HB HP E En. destruct (count_exists payload m n HP E En) as (t & HL & X1 & X2). split.
    - intros [_ _ _ _ _ (pl & t' & HP' & HL' & F1 & F2)]. destruct (count_same payload pl m n t' HP HP' E En HL') as (Y1 & Y2). lia.
    - intros (F1 & F2). constructor; try assumption. exists payload, t. split; [exact HP|]. split; [exact HL|]. lia.
  Qed.
  Lemma count_returns payload payload' t : payload_ok len ok payload -> payload_ok len ok payload' -> laid_out false (step_circuit cy P2 c payload') t ->
    exists m n, recursive_constraint_count cy P2 c payload = Some (Ok m) /\ find_count "" m = Some n /\ total_mults n = l_gates t /\ total_lcs n = length (l_lcs t).
  Proof.
    intros HP HP' HL. unfold step_circuit, as_circuit, blank_circuit, inner_for in HL.
    destruct (cast_blank H2 (cyc_base2 cy) P2 _ len ok payload' payload t HP' HP (cast_uniform _ _ _ HU) Hk HG HS HL) as (t' & HL' & S1 & S2 & _).
    rewrite S1, S2. exact (cast_count (cyc_base2 cy) (on_scalar1 c) P2 payload t' HT HL').
  Qed.
End CountMain.
