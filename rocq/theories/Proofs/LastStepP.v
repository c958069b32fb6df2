(** Values of the wires that satisfy the recursive circuit's system of constraints
    satisfy the application's circuit. *)
From Coq Require Import String List Bool Arith ZArith Lia Ring Sorting.Sorted.
From Verif Require Import Model.FieldTrait Model.Circuits Model.Num Model.Boolean Model.Curve Model.Util Model.Params
  Model.Opening Model.Proofs Model.Recursion Model.RecursiveProof
  Spec.FieldLaws Spec.CircuitSpec Spec.BoolSpec Spec.SystemSpec Spec.CurveSpec Spec.CurveLaws Spec.UtilSpec Spec.RecursionSpec Spec.RecursiveCircuitSpec Spec.UniformSpec Spec.LastStepSpec
  Proofs.FieldGen Proofs.FpFq Proofs.CurveInst Proofs.CurveTop Proofs.BoolP Proofs.CircuitP Proofs.DriverP Proofs.DriverTop Proofs.LcP Proofs.SystemP Proofs.AlikeRecursionP Proofs.RecursiveSystemP Proofs.ChallengeP.
Import ListNotations.
Open Scope list_scope. Open Scope nat_scope.
Local Notation length := List.length.

Section Layouts.
  Context {F : Field}.
  (** what a run adds *)
  Lemma lay_wire_same (s : layout F) v : l_lcs (fst (lay_wire s v)) = l_lcs s /\ l_inputs (fst (lay_wire s v)) = l_inputs s.
  Proof. unfold lay_wire. destruct (l_half s); split; reflexivity. Qed.
  Lemma lay_adds {A} ran (p : Prog F A) : forall s s' a, lay ran p s = Some (s', a) ->
    exists more ins, l_lcs s' = l_lcs s ++ more /\ l_inputs s' = l_inputs s ++ ins /\ Forall (fun q => length (l_lcs s) < q) ins.
  Proof.
    induction p as [a0| |ann v k IH|ann v k IH|lc k IH|ann v k IH|n k IH|k IH]; cbn [lay]; intros s s' a H.
    - injection H as <- <-. exists [], []. rewrite !app_nil_r. auto.
    - discriminate H.
    - destruct (value_of ran fzero v) as [x|]; [|discriminate H]. destruct (lay_wire_same s x) as (E1 & E2).
      destruct (lay_wire s x) as [s1 y]. cbn [fst] in *. apply IH in H. rewrite E1, E2 in H. exact H.
    - destruct (value_of ran fzero v) as [x|]; [|discriminate H]. unfold lay_input in H. destruct (lay_wire_same s x) as (E1 & E2).
      destruct (lay_wire s x) as [s1 y]. cbn [fst] in *. apply IH in H. cbn [l_lcs l_inputs] in H. rewrite E1, E2 in H.
      destruct H as (more & ins & H1 & H2 & H3). exists ([(y, COne)] :: more), (S (length (l_lcs s)) :: ins). rewrite H1, H2, <- !app_assoc. split; [reflexivity|]. split; [reflexivity|].
      constructor; [lia|]. eapply Forall_impl; [|exact H3]. cbv beta. intros q. rewrite app_length. cbn [length]. lia.
    - destruct (forallb _ lc); [|discriminate H]. apply IH in H. cbn [lay_lc l_lcs l_inputs] in H.
      destruct H as (more & ins & H1 & H2 & H3). exists (lc :: more), ins. rewrite H1, H2, <- !app_assoc. split; [reflexivity|]. split; [reflexivity|].
      eapply Forall_impl; [|exact H3]. cbv beta. intros q. rewrite app_length. cbn [length]. lia.
    - destruct (value_of ran _ v) as [[[x y] z]|]; [|discriminate H]. apply IH in H. exact H.
    - apply IH in H. exact H.
    - apply IH in H. exact H.
  Qed.
  Lemma input_at_other ps (vs : list F) q : ~ In q ps -> input_at ps vs q = fzero.
  Proof.
    revert vs. induction ps as [|p ps IH]; intros [|v vs] H; cbn [input_at]; try reflexivity.
    destruct (Nat.eqb_spec p q) as [->|N]; [elim H; left; reflexivity|]. apply IH. intro X. apply H. right. exact X.
  Qed.
  Lemma input_at_all ps ps' (vs : list F) : NoDup (ps ++ ps') -> length ps <= length vs -> map (input_at (ps ++ ps') vs) ps = firstn (length ps) vs.
  Proof.
    revert vs. induction ps as [|p ps IH]; intros [|v vs] HD HL; cbn [length] in HL; try reflexivity; [lia|].
    inversion HD as [|? ? N HD']; subst. cbn [map length firstn input_at app]. rewrite Nat.eqb_refl. f_equal. rewrite <- (IH vs) by (assumption || lia).
    apply map_ext_in. intros q Hq. destruct (Nat.eqb_spec p q) as [->|_]; [elim N; apply in_or_app; left; exact Hq|reflexivity].
  Qed.
  Lemma skipn_pre {X} (l r : list X) : skipn (length l) (l ++ r) = r.
  Proof. rewrite skipn_app, skipn_all, Nat.sub_diag. reflexivity. Qed.
  Context {p0 : Z} {v0 : F -> Z} (OL : OpsLaws F p0 v0).
  Add Ring Fr : (fring OL).
  (** [s] is the layout at some time before the circuit is laid out as [t] *)
  Definition part_of (s t : layout F) : Prop :=
    l_gates s <= l_gates t /\ (exists more, l_lcs t = l_lcs s ++ more) /\ (exists ins, l_inputs t = l_inputs s ++ ins /\ Forall (fun q => length (l_lcs s) < q) ins).
  Lemma part_run {A} ran (p : Prog F A) s t a : lay ran p s = Some (t, a) -> part_of s t.
  Proof. intro H. destruct (lay_adds _ _ _ _ _ H) as (more & ins & H1 & H2 & H3). split; [exact (lay_mono _ _ _ _ _ H)|]. split; [exists more; exact H1|exists ins; auto]. Qed.
  Lemma part_refl s : part_of s s.
  Proof. split; [lia|]. split; [exists []|exists []]; rewrite app_nil_r; auto. Qed.
  (** the run of the circuit that was laid out *)
  Lemma lay_exec {A} (p : Prog F A) vs a b c (t : layout F) : forall s s' r, lay_ok s -> lay false p s = Some (s', r) -> part_of s' t ->
    gates_satisfied (l_gates t) a b c -> lcs_satisfied (l_lcs t) (l_inputs t) vs a b c ->
    exists tr, Exec p tr (Some r) /\ constraints_hold (wires a b c) tr /\
      map (wires a b c) (input_vars tr) = map (input_at (l_inputs t) vs) (skipn (length (l_inputs s)) (l_inputs s')).
  Proof.
    induction p as [a0| |ann v k IH|ann v k IH|lc k IH|ann v k IH|n k IH|k IH]; intros s s' r HO H HP HG HL; pose proof (lay_ok_run false _ _ _ _ HO H) as HO'; pose proof (lay_adds _ _ _ _ _ H) as HA; pose proof (lay_mono _ _ _ _ _ H) as HM; cbn [lay] in H.
    - injection H as <- <-. exists []. split; [constructor|]. split; [constructor|]. rewrite skipn_all. reflexivity.
    - discriminate H.
    - cbn [value_of] in H. destruct (lay_wire_same s fzero) as (E1 & E2).
      assert (HO1 : lay_ok (fst (lay_wire s fzero))).
      { apply (lay_ok_run false (Alloc ann (Err Unsatisfiable) (fun _ => Ret tt)) s _ tt HO). cbn [lay value_of]. destruct (lay_wire s fzero) as [s1 x]. reflexivity. }
      destruct (lay_wire s fzero) as [s1 x]. cbn [fst] in *.
      destruct (IH _ _ _ _ HO1 H HP HG HL) as (tr & H1 & H2 & H3). rewrite E2 in H3. exists (EvAlloc x None :: tr).
      split; [eapply ExAlloc_skip; exact H1|]. split; [constructor; [exact I|exact H2]|exact H3].
    - cbn [value_of] in H. unfold lay_input in H. destruct (lay_wire_same s fzero) as (E1 & E2).
      assert (HO1 : lay_ok (fst (lay_input s fzero))).
      { apply (lay_ok_run false (AllocInput ann (Err Unsatisfiable) (fun _ => Ret tt)) s _ tt HO). cbn [lay value_of]. destruct (lay_input s fzero) as [s1 x]. reflexivity. }
      unfold lay_input in HO1. destruct (lay_wire s fzero) as [s1 x]. cbn [fst] in *.
      pose proof (lay_adds _ _ _ _ _ H) as (more & ins & M1 & M2 & M3). cbn [l_lcs l_inputs] in M1, M2, M3. rewrite E1, E2 in *.
      destruct (IH _ _ _ _ HO1 H HP HG HL) as (tr & H1 & H2 & H3). exists (EvInput x None :: tr).
      split; [eapply ExInput_skip; exact H1|]. split; [constructor; [exact I|exact H2]|]. cbn [input_vars map].
      rewrite H3. cbn [l_inputs]. set (f := input_at (l_inputs t) vs). rewrite M2, skipn_pre, <- app_assoc, skipn_pre. cbn [app map]. f_equal. unfold f.
      destruct HP as (_ & (more' & T1) & _). specialize (HL (S (length (l_lcs s))) [(x, COne)]). rewrite Nat.sub_succ, Nat.sub_0_r, T1, M1, <- !app_assoc, nth_error_app2, Nat.sub_diag in HL by lia.
      rewrite <- HL by (reflexivity || lia). cbn [lc_val coeff_val]. ring.
    - destruct (forallb _ lc) eqn:EW; [|discriminate H].
      assert (HO1 : lay_ok (lay_lc s lc)).
      { apply (lay_ok_run false (EnforceZero lc (Ret tt)) s _ tt HO). cbn [lay]. rewrite EW. reflexivity. }
      pose proof (lay_adds _ _ _ _ _ H) as (more & ins & M1 & M2 & M3). cbn [lay_lc l_lcs l_inputs] in M1, M2, M3.
      destruct (IH _ _ _ HO1 H HP HG HL) as (tr & H1 & H2 & H3). exists (EvLC lc :: tr).
      split; [constructor; exact H1|]. split; [|exact H3]. constructor; [|exact H2]. cbn [holds].
      destruct HP as (_ & (more' & T1) & (ins' & T2 & T3)). specialize (HL (S (length (l_lcs s))) lc). rewrite Nat.sub_succ, Nat.sub_0_r, T1, M1, <- !app_assoc, nth_error_app2, Nat.sub_diag in HL by lia.
      rewrite HL by (reflexivity || lia). apply input_at_other. rewrite T2, M2. intro HI. apply in_app_or in HI. destruct HI as [HI|HI]; [apply in_app_or in HI; destruct HI as [HI|HI]|].
      + pose proof (proj1 (Forall_forall _ _) (lo_range _ HO) _ HI). cbv beta in *. lia.
      + pose proof (proj1 (Forall_forall _ _) M3 _ HI). cbv beta in *. rewrite app_length in *. cbn [length] in *. lia.
      + pose proof (proj1 (Forall_forall _ _) T3 _ HI). cbv beta in *. rewrite M1, !app_length in *. cbn [length] in *. lia.
    - cbn [value_of] in H.
      assert (HO1 : lay_ok (lay_gate s fzero fzero fzero)).
      { apply (lay_ok_run false (Multiply ann (Err Unsatisfiable) (fun _ => Ret tt)) s _ tt HO). reflexivity. }
      pose proof (lay_mono _ _ _ _ _ H) as HM1. cbn [lay_gate l_gates] in HM1.
      destruct (IH _ _ _ _ HO1 H HP HG HL) as (tr & H1 & H2 & H3). cbn [lay_gate l_gates l_inputs] in *.
      exists (EvMul (VA (S (l_gates s))) (VB (S (l_gates s))) (VC (S (l_gates s))) None :: tr).
      split; [econstructor; exact H1|]. split; [|exact H3]. constructor; [|exact H2]. cbn [holds wires]. apply HG. destruct HP as (HP & _). lia.
    - destruct (IH _ _ _ HO H HP HG HL) as (tr & H1 & H2 & H3). exists tr. split; [constructor; exact H1|]. split; assumption.
    - destruct (IH _ _ _ HO H HP HG HL) as (tr & H1 & H2 & H3). exists tr. split; [constructor; exact H1|]. split; assumption.
  Qed.
  Lemma sorted_nodup (l : list nat) : StronglySorted lt l -> NoDup l.
  Proof.
    induction 1 as [|x l _ IH HF]; constructor; [|exact IH]. intro HI. pose proof (proj1 (Forall_forall _ _) HF _ HI). cbv beta in *. lia.
  Qed.
  Lemma layout0_ok : lay_ok (layout0 (F := F) false).
  Proof.
    unfold layout0. constructor; cbn [l_a l_b l_c l_gates l_half l_lcs l_inputs l_values]; try reflexivity.
    - intros i E. injection E as <-. lia.
    - repeat constructor.
    - repeat constructor.
    - repeat constructor.
  Qed.
  (** a circuit with a first part *)
  Lemma laid_exec {A} (m : CS F A) (f : A -> CS F unit) t vs a b c : lay false (bind m f) (layout0 false) = Some (t, Ok tt) ->
    gates_satisfied (l_gates t) a b c -> lcs_satisfied (l_lcs t) (l_inputs t) (fone :: vs) a b c ->
    wires a b c (VA 1) = fone /\ exists s1 x t1 t2, lay false m (layout0 false) = Some (s1, Ok x) /\ 
      Exec m t1 (Some (Ok x)) /\ constraints_hold (wires a b c) t1 /\ (length (l_inputs s1) <= S (length vs) -> map (wires a b c) (input_vars t1) = firstn (length (l_inputs s1) - 1) vs) /\
      Exec (f x) t2 (Some (Ok tt)) /\ constraints_hold (wires a b c) t2.
  Proof.
    intros HL HG HC. pose proof (lay_ok_run _ _ _ _ _ layout0_ok HL) as HO'. pose proof (lay_adds _ _ _ _ _ HL) as (more & ins & M1 & M2 & M3). split.
    { cbn [layout0 l_lcs l_inputs] in *. pose proof (HC 1 [(VA 1, COne)]) as X. rewrite M1, M2 in X. cbn [app nth_error Nat.sub input_at Nat.eqb] in X. rewrite <- X by (reflexivity || lia). cbn [lc_val coeff_val]. ring. }
    destruct (lay_bind _ _ _ _ _ _ HL) as (s1 & x & E1 & E2). pose proof (lay_ok_run _ _ _ _ _ layout0_ok E1) as HO1. pose proof (part_run _ _ _ _ _ E2) as HP.
    destruct (lay_exec _ (fone :: vs) a b c t _ _ _ layout0_ok E1 HP HG HC) as (t1 & X1 & X2 & X3).
    destruct (lay_exec _ (fone :: vs) a b c t _ _ _ HO1 E2 (part_refl t) HG HC) as (t2 & Y1 & Y2 & _).
    exists s1, x, t1, t2. do 3 (split; [assumption|]). split; [|auto].
    intro HN. destruct HP as (_ & _ & (ins' & T2 & _)). rewrite X3, <- skipn_map. cbn [layout0 l_inputs length].
    pose proof (sorted_nodup _ (lo_sorted _ HO')) as ND. rewrite T2 in *. pose proof (input_at_all (l_inputs s1) ins' (fone :: vs) ND HN) as E'.
    rewrite E'. destruct (l_inputs s1) as [|i l]; [reflexivity|]. cbn [length firstn skipn Nat.sub]. rewrite Nat.sub_0_r. reflexivity.
  Qed.
End Layouts.

Section Inner.
  Context {C : Curve} {q vb r vs} (CL : CurveLaws C q vb r vs).
  Notation F := (Base C).
  Let FL := cl_base _ _ _ _ _ CL.
  Let OL : OpsLaws F q vb := fl_ops _ _ _ FL.
  Lemma runs_bind {A B} (w : assignment F) (m : CS F A) (f : A -> CS F B) tr b : Exec (bind m f) tr (Some (Ok b)) -> constraints_hold w tr ->
    exists t1 t2 a, tr = t1 ++ t2 /\ Exec m t1 (Some (Ok a)) /\ constraints_hold w t1 /\ Exec (f a) t2 (Some (Ok b)) /\ constraints_hold w t2.
  Proof.
    intros HE HC. apply exec_pbind in HE. destruct HE as [(t1 & t2 & [a|e] & -> & H1 & H2)|(_ & E)]; [|inversion H2|discriminate E].
    apply Forall_app in HC. exists t1, t2, a. tauto.
  Qed.
  Lemma runs_skip {A B} (w : assignment F) (m : CS F A) (f : A -> CS F B) b (P : Prop) :
    (forall a tr, Exec (f a) tr (Some (Ok b)) -> constraints_hold w tr -> P) ->
    forall tr, Exec (bind m f) tr (Some (Ok b)) -> constraints_hold w tr -> P.
  Proof. intros H tr HE HC. destruct (runs_bind w m f tr b HE HC) as (t1 & t2 & a & _ & _ & _ & X). apply (H a t2); tauto. Qed.
  Lemma runs_keep {A B} (w : assignment F) (m : CS F A) (Q : A -> Prop) (f : A -> CS F B) b (P : Prop) : sound w m Q ->
    (forall a, Q a -> forall tr, Exec (f a) tr (Some (Ok b)) -> constraints_hold w tr -> P) ->
    forall tr, Exec (bind m f) tr (Some (Ok b)) -> constraints_hold w tr -> P.
  Proof.
    intros HQ H tr HE HC. destruct (runs_bind w m f tr b HE HC) as (t1 & t2 & a & _ & H1 & H2 & X).
    apply (H a (HQ t1 _ H1 H2) t2); tauto.
  Qed.
  (** the wires of public input bits are the public inputs *)
  Lemma input_exec s b tr x : Exec (namespace s (bit_alloc_input_unchecked (F := F) (Ok b))) tr (Some (Ok x)) -> input_vars tr = [bit_var x] /\ (bit_value x = Some b \/ bit_value x = None).
  Proof.
    intro HE. apply exec_namespace in HE. unfold bit_alloc_input_unchecked, alloc_input, bind in HE. cbn [pbind rbind] in HE.
    inversion HE as [| | | | | |? ? ? y c tr' r' H|? f ? y tr' r' H|? e ? tr' r' H|? ? e ? tr' r' H| | | | | | |]; subst; cbn in H; inversion H; subst; cbn.
    - split; [reflexivity|]. unfold stored. destruct c; auto.
    - split; [reflexivity|]. auto.
  Qed.
  Lemma inputs_exec s bs : forall tr l, Exec (input_bits (C := C) s bs) tr (Some (Ok l)) -> input_vars tr = map bit_var l /\ length l = length bs.
  Proof.
    intros tr l HE. unfold input_bits in HE. apply exec_namespace in HE. revert tr l HE.
    induction bs as [|b bs IH]; intros tr l HE; cbn [mapM] in HE.
    - inversion HE; subst. split; reflexivity.
    - apply exec_pbind in HE. destruct HE as [(t1 & t2 & [a|e] & -> & H1 & H2)|(_ & E)]; [|inversion H2|discriminate E].
      destruct (input_exec _ _ _ _ H1) as [E1 E2].
      apply exec_pbind in H2. destruct H2 as [(t3 & t4 & [l'|e] & -> & H3 & H4)|(_ & E)]; [|inversion H4|discriminate E].
      inversion H4; subst. destruct (IH _ _ H3) as [E3 E4].
      rewrite app_nil_r, input_vars_app, E1, E3. cbn [map app length]. rewrite E4. split; reflexivity.
  Qed.
  Lemma bits_sound (w : assignment F) s bs : sound w (witness_bits (C := C) s bs) (fun l => exists os, length os = length bs /\ Forall2 (bit_is w) l os).
  Proof.
    unfold witness_bits. apply sound_namespace. intros tr l HE. revert tr l HE.
    induction bs as [|b bs IH]; intros tr l HE HC; cbn [mapM] in HE.
    - inversion HE; subst. exists []. split; [reflexivity|constructor].
    - destruct (runs_bind w _ _ _ _ HE HC) as (t1 & t2 & a & -> & H1 & C1 & H2 & C2).
      destruct (runs_bind w _ _ _ _ H2 C2) as (t3 & t4 & l' & -> & H3 & C3 & H4 & C4). inversion H4; subst.
      destruct (IH _ _ H3 C3) as (os & HL & HF). apply exec_namespace in H1.
      destruct (bit_alloc_sound FL w _ _ _ H1 C1) as (x & Hx). exists (x :: os). split; [cbn [length]; lia|]. constructor; assumption.
  Qed.
  (** the application's part of a satisfied system *)
  Lemma inner_holds (self : VerificationCircuit C) t a b c rest : laid_out false (fun one => vc_synthesize one self) t ->
    gates_satisfied (l_gates t) a b c -> lcs_satisfied (l_lcs t) (l_inputs t) (fone :: map of_bit (in_payload self) ++ rest) a b c ->
    exists ob, length ob = length (w_payload self) /\ accepts_step (vc_inner self) ob (in_payload self).
  Proof.
    unfold laid_out. rewrite synthesize_split. intros HL HG HC. set (w := wires a b c).
    destruct (laid_exec OL _ _ t _ a b c HL HG HC) as (W1 & s1 & pb & t1 & t2 & E1 & X1 & _ & X3 & H2 & C2). fold w in W1, X3, C2.
    assert (O0 : only_inputs (layout0 (F := F) false)) by reflexivity.
    destruct (lay_input_bits false _ _ _ _ _ O0 E1) as (L1 & _ & L2 & L3). cbn [layout0 l_lcs length] in L2.
    unfold only_inputs in L1. rewrite L1, seq_length, L2 in X3. cbn [Nat.add] in X3. specialize (X3 ltac:(rewrite app_length, map_length; lia)). rewrite Nat.sub_succ, Nat.sub_0_r, firstn_app, firstn_all2, map_length, Nat.sub_diag, app_nil_r in X3 by (rewrite map_length; lia).
    destruct (inputs_exec _ _ _ _ X1) as (V1 & V2).
    assert (HB : Forall2 (bit_has w) pb (in_payload self)).
    { rewrite V1, map_map in X3. clear - X3 L3. revert X3 L3. generalize (in_payload self). clear.
      induction pb as [|x pb IH]; intros [|bb bs] HI HV; cbn [map] in *; try discriminate; constructor.
      - injection HI as H1 _. injection HV as H2 _. split; assumption.
      - injection HI as _ H1. injection HV as _ H2. apply (IH bs H1 H2). }
    clear HL HG HC X1 E1 V1 V2 X3 L1 L2 L3. revert t2 H2 C2. set (P := exists ob, _).
    do 3 (apply runs_skip; intro). unfold vc_tail, vc_tail_with. cbv zeta.
    do 5 (apply runs_skip; intro). apply runs_skip; intros [gx gy].
    assert (HO : sound w (match vc_proof self with
                   | Some p => witness_bits "old_payload" (bytes_bits (op_payload p))
                   | None => witness_bits "base_payload" (base_payload (vc_inner self)) end) (fun l => exists os, length os = length (w_payload self) /\ Forall2 (bit_is w) l os)).
    { unfold w_payload. destruct (vc_proof self); apply bits_sound. }
    eapply runs_keep; [exact HO|]. intros old (ob & Hob & Fob). do 11 (apply runs_skip; intro).
    intros tr' HE HC. apply exec_namespace in HE. exists ob. split; [exact Hob|]. exists w, (VA 1), old, pb, tr'. auto 6.
  Qed.
End Inner.
