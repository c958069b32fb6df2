(** The system of constraints of the recursive circuit. *)
From Coq Require Import String List Bool Arith ZArith Lia Ring.
From Verif Require Import Model.FieldTrait Model.Circuits Model.Num Model.Boolean Model.Curve Model.Util Model.Ecc Model.Params
  Model.Opening Model.Proofs Model.Recursion
  Spec.FieldLaws Spec.CircuitSpec Spec.SystemSpec Spec.CurveSpec Spec.CheatSpec Spec.CurveLaws Spec.UtilSpec Spec.RecursionSpec Spec.VerifySpec Spec.RecursiveCircuitSpec Spec.UniformSpec
  Proofs.FieldGen Proofs.UnpackP Proofs.EccMulP Proofs.CurveTop Proofs.EncodeP Proofs.RecursionGlue Proofs.DriverP Proofs.SystemP Proofs.AlikeP Proofs.AlikeGadgetsP Proofs.AlikeEccP Proofs.AlikeRecursionP Proofs.AlikeLayoutP.
Import ListNotations.
Open Scope list_scope. Open Scope nat_scope.
Notation length := List.length.

Local Notation fb := f_from_bool.
Section LayBind.
  Context {F : Field}.
  Lemma lay_pbind {A B} ran (p : Prog F A) (f : A -> Prog F B) : forall s,
    lay ran (pbind p f) s = match lay ran p s with Some (s', a) => lay ran (f a) s' | None => None end.
  Proof.
    induction p as [a0| |ann v k IH|ann v k IH|lc k IH|ann v k IH|n k IH|k IH]; intro s; cbn [pbind lay]; auto.
    - destruct (value_of ran fzero v); [|reflexivity]. destruct (lay_wire s f0). apply IH.
    - destruct (value_of ran fzero v); [|reflexivity]. destruct (lay_input s f0). apply IH.
    - destruct (forallb _ lc); [|reflexivity]. apply IH.
    - destruct (value_of ran _ v) as [[[x y] z]|]; [|reflexivity]. apply IH.
  Qed.
  Lemma lay_bind {A B} ran (m : CS F A) (f : A -> CS F B) s s' b : lay ran (bind m f) s = Some (s', Ok b) ->
    exists s1 a, lay ran m s = Some (s1, Ok a) /\ lay ran (f a) s1 = Some (s', Ok b).
  Proof.
    unfold bind. rewrite lay_pbind. destruct (lay ran m s) as [[s1 [a|e]]|]; try discriminate. intro H. exists s1, a. auto.
  Qed.
  Lemma lay_ns {A} ran n (m : CS F A) s : lay ran (namespace n m) s = lay ran m s.
  Proof. unfold namespace. cbn [lay]. rewrite lay_pbind. destruct (lay ran m s) as [[s1 a]|]; reflexivity. Qed.

  (** all constraints so far belong to public inputs *)
  Definition only_inputs (s : layout F) : Prop := l_inputs s = seq 1 (length (l_lcs s)).
  Lemma only_input s v : only_inputs s -> only_inputs (fst (lay_input s v)) /\ l_values (fst (lay_input s v)) = l_values s ++ [v] /\
    length (l_lcs (fst (lay_input s v))) = S (length (l_lcs s)).
  Proof.
    intro H. rewrite lay_input_split. cbv zeta. unfold only_inputs. cbn [fst lay_lc l_lcs l_inputs l_values].
    assert (X : l_lcs (fst (lay_wire s v)) = l_lcs s /\ l_inputs (fst (lay_wire s v)) = l_inputs s /\ l_values (fst (lay_wire s v)) = l_values s) by (unfold lay_wire; destruct (l_half s); repeat split).
    destruct X as (-> & -> & ->). rewrite app_length. cbn [length]. rewrite Nat.add_1_r, seq_S, H. repeat split.
  Qed.
End LayBind.

Section Top.
  Context {C : Curve} {q vb r vs} (CL : CurveLaws C q vb r vs).
  Notation F := (Base C).
  Let OL : OpsLaws F q vb := fl_ops _ _ _ (cl_base _ _ _ _ _ CL).
  Hypothesis HDum : forall k, 2 <= k -> exists D : Deferred F, deferred_dummy k = Some D.

  Lemma lay_input_bits ran n bs : forall (s : layout F) s' l, only_inputs s -> lay ran (input_bits n bs) s = Some (s', Ok l) ->
    only_inputs s' /\ l_values s' = l_values s ++ map (fun b => if ran then fb b else fzero) bs /\ length (l_lcs s') = length (l_lcs s) + length bs /\
    map bit_value l = map Some bs.
  Proof.
    unfold input_bits. induction bs as [|b bs IH]; intros s s' l HO E; rewrite lay_ns in E; cbn [mapM] in E.
    - injection E as <- <-. split; [exact HO|]. cbn [map length]. rewrite app_nil_r. split; [reflexivity|split; [lia|reflexivity]].
    - apply lay_bind in E. destruct E as (s1 & x & E1 & E). rewrite lay_ns in E1. unfold bit_alloc_input_unchecked in E1. cbn [rbind] in E1.
      apply lay_bind in E1. destruct E1 as (s2 & [y c] & E1 & E2). unfold alloc_input in E1. cbn [lay] in E1.
      assert (Ev : value_of ran fzero (Ok (fb b)) = Some (if ran then fb b else @fzero F)) by (destruct ran; reflexivity). rewrite Ev in E1.
      destruct (only_input s (if ran then fb b else fzero) HO) as (O1 & O2 & O3). destruct (lay_input s _) as [s3 y3]. cbn [fst lay] in *.
      assert (Ex : bit_value x = Some b) by (unfold ret in E1, E2; cbn [lay stored] in E1, E2; injection E1 as _ _ <-; injection E2 as _ <-; reflexivity).
      assert (s3 = s2 /\ s2 = s1) as [-> ->] by (unfold ret in E1, E2; cbn [lay] in E1, E2; split; congruence).
      apply lay_bind in E. destruct E as (s4 & xs & E3 & E4). unfold ret in E4; cbn [lay] in E4. assert (s4 = s') as -> by congruence. assert (l = x :: xs) as -> by congruence.
      destruct (IH s1 s' xs O1) as (P1 & P2 & P3 & P4); [rewrite lay_ns; exact E3|]. split; [exact P1|]. split; [|split; [cbn [length]; lia|cbn [map]; congruence]].
      rewrite P2, O2, <- app_assoc. reflexivity.
  Qed.

  Lemma deferred_bits_len {G : Field} {p} {v : G -> Z} (FL : FieldLaws G p v) k (D : Deferred G) : length (d_challenges_sq_packed_old D) = k -> length (d_challenges_sq_packed_new D) = k ->
    length (bytes_bits (deferred_to_bytes D)) = deferred_bits k.
  Proof. intros H1 H2. unfold bytes_bits. rewrite bytes_bits_length, (deferred_len _ _ FL), H1, H2. unfold deferred_bits. lia. Qed.
  Lemma leftovers_bits_len k (L : Leftovers C) : length (challenges_sq_packed_new L) = k -> length (bytes_bits (leftovers_to_bytes L)) = leftovers_bits k.
  Proof. intros H1. unfold bytes_bits. rewrite bytes_bits_length, (leftovers_len CL), H1. unfold leftovers_bits. lia. Qed.

  Lemma shaped_lengths (vc : VerificationCircuit C) : shaped vc -> 2 <= p_k (vc_params vc) -> let k := p_k (vc_params vc) in
    length (in_old vc) = leftovers_bits k /\ length (in_new vc) = leftovers_bits k /\ length (in_deferred vc) = deferred_bits k /\
    length (w_payload vc) = length (base_payload (vc_inner vc)) /\ length (w_leftovers vc) = leftovers_bits k /\
    (exists D, w_deferred vc = Some D /\ length (bytes_bits (deferred_to_bytes D)) = deferred_bits k).
  Proof.
    intros [S1 S2 S3 S4 S5] Hk. cbv zeta. unfold in_old, in_new, in_deferred, w_payload, w_leftovers, w_deferred. repeat split.
    - destruct (vc_old_leftovers vc) as [lb|]; [|apply repeat_length]. unfold bytes_bits. rewrite bytes_bits_length, (S3 lb eq_refl). unfold leftovers_bits. lia.
    - destruct (vc_new_leftovers vc) as [L|]; [|apply repeat_length]. apply leftovers_bits_len, S4. reflexivity.
    - destruct (vc_deferred vc) as [D|]; [|apply repeat_length]. destruct (S5 D eq_refl). eapply deferred_bits_len; [exact (cl_scalar _ _ _ _ _ CL)|assumption|assumption].
    - destruct (vc_proof vc) as [p|]; [|reflexivity]. unfold bytes_bits. rewrite bytes_bits_length. apply S1. reflexivity.
    - destruct (vc_proof vc) as [p|]; [|apply repeat_length]. apply leftovers_bits_len, S1. reflexivity.
    - destruct (vc_proof vc) as [p|].
      + destruct (S1 p eq_refl) as (_ & _ & _ & H1 & H2). eexists. split; [reflexivity|]. eapply deferred_bits_len; [exact (cl_base _ _ _ _ _ CL)|assumption|assumption].
      + destruct (HDum _ Hk) as (D & E). exists D. split; [exact E|]. destruct (dummy_small (cl_base _ _ _ _ _ CL) _ _ E) as (H1 & H2 & _).
        eapply deferred_bits_len; [exact (cl_base _ _ _ _ _ CL)|assumption|assumption].
  Qed.
  Lemma starts_summable (P : Params C) : good_generators P -> starts_well P -> exists gx gy gens,
    nth_error (p_generators_xy P) 1 = Some (gx, gy) /\ slice_from (p_generators_xy P) 2 = Some gens /\ summable (C := C) gx gy gens.
  Proof.
    intros (Gs & HG) (first & (gx & gy) & gens & E & H). rewrite E in *. exists gx, gy, gens. split; [reflexivity|]. split; [reflexivity|].
    assert (HO : Forall (fun xy => on_curve (c_b C) (Some xy)) (first :: (gx, gy) :: gens)).
    { clear - HG. induction HG; constructor; [|assumption]. eapply rep_on_curve. eassumption. }
    inversion HO as [|? ? _ HO1]; subst. inversion HO1 as [|? ? HO2 HO3]; subst. split; [exact HO2|]. split; [exact HO3|].
    destruct gens as [|xy gens]; [exact I|]. apply H. reflexivity.
  Qed.

  Section TwoWith.
    Variables (self self' : VerificationCircuit C) (ok : list bool -> Prop).
    Hypotheses (SH : shaped self) (SH' : shaped self') (EP : vc_params self' = vc_params self) (EI : vc_inner self' = vc_inner self)
      (EL : length (vc_new_payload self) = length (vc_new_payload self')) (HU : uniform ok (vc_inner self)) (HOk : ok (in_payload self')) (Hk : 2 <= p_k (vc_params self))
      (HG : good_generators (vc_params self)) (HS : starts_well (vc_params self)).
    Lemma sound_shaped (vc : VerificationCircuit C) : shaped vc -> sound_old (p_k (vc_params vc)) (vc_proof vc) /\ match vc_forkvalues vc with None => True | Some fs => p_k (vc_params vc) <= length fs end.
    Proof.
      intro H. split; [|destruct (vc_forkvalues vc) eqn:E; [apply (sh_forks _ H), E|exact I]].
      destruct (vc_proof vc) as [p|] eqn:E; [|exact I]. apply (sh_proof _ H), E.
    Qed.
    Variables (sums sums' : list (C -> C -> C)).
    Hypothesis HSm : Forall (fun sum => forall c1 c2 : C, valid c1 -> valid c2 -> valid (sum c1 c2)) sums'.
    Lemma tails_with inp (V : Var -> Prop) one (V1 : V one) pb pb' l1 l1' l2 l2' d d' : Forall2 (same_bit V) pb pb' -> Forall2 (same_bit V) l1 l1' -> Forall2 (same_bit V) l2 l2' -> Forall2 (same_bit V) d d' ->
      map bit_value pb' = map Some (in_payload self') ->
      alike inp V (fun _ _ => True) (vc_tail_with one (endo_chain_with one sums) self pb l1 l2 d) (vc_tail_with one (endo_chain_with one sums') self' pb' l1' l2' d').
    Proof.
      intros. destruct (starts_summable _ HG HS) as (gx & gy & gens & G1 & G2 & G3).
      destruct (shaped_lengths self SH Hk) as (_ & _ & _ & A4 & A5 & D & A6 & A7). assert (Hk' : 2 <= p_k (vc_params self')) by (rewrite EP; exact Hk).
      destruct (shaped_lengths self' SH' Hk') as (_ & _ & _ & B4 & B5 & D' & B6 & B7). rewrite EP in B5, B7.
      destruct (sound_shaped self' SH') as (S1 & S2). rewrite EP in S1, S2.
      eapply (A_vc_tail CL inp V one V1 self self' (p_k (vc_params self)) eq_refl ltac:(rewrite EP; reflexivity) S1 S2); try eassumption.
      - intros ? ? ? ? ? ? ? ? ?. apply (A_endo_chain_with CL); assumption.
      - rewrite A4, B4, EI. reflexivity.
      - congruence.
      - intro E. rewrite E in B5. discriminate B5.
      - intros D0 E0. rewrite A6 in E0. injection E0 as <-. congruence.
    Qed.
    Lemma circuits_alike_with (V : Var -> Prop) one (V1 : V one) : alike True V (fun _ _ => True) (vc_synthesize_with one (endo_chain_with one sums) self) (vc_synthesize_with one (endo_chain_with one sums') self').
    Proof.
      destruct (shaped_lengths self SH Hk) as (A1 & A2 & A3 & _). assert (Hk' : 2 <= p_k (vc_params self')) by (rewrite EP; exact Hk).
      destruct (shaped_lengths self' SH' Hk') as (B1 & B2 & B3 & _). rewrite EP in B1, B2, B3. rewrite !synthesize_split_with.
      eapply alike_nsb; [apply A_input_bits; [exact I|unfold in_payload, bytes_bits; rewrite !bytes_bits_length, EL; reflexivity]|]. intros pb pb' (H1 & Hv).
      eapply alike_nsb; [apply A_input_bits; [exact I|congruence]|]. intros l1 l1' (H2 & _).
      eapply alike_nsb; [apply A_input_bits; [exact I|congruence]|]. intros l2 l2' (H3 & _).
      eapply alike_nsb; [apply A_input_bits; [exact I|congruence]|]. intros d d' (H4 & _).
      apply tails_with; assumption.
    Qed.
    Lemma circuits_same_system_with ran s : laid_out ran (fun one => vc_synthesize_with one (endo_chain_with one sums) self) s ->
      exists t, laid_out false (fun one => vc_synthesize_with one (endo_chain_with one sums') self') t /\ same_system s t.
    Proof.
      unfold laid_out. intro E. destruct (alike_lay True _ _ _ (circuits_alike_with (fun _ => True) (VA 1) I) ran (layout0 ran) s (layout0 false) tt E) as (t & [] & E1 & (_ & H2 & H3 & H4) & _).
      - repeat split.
      - exists t. split; [exact E1|]. repeat split; assumption.
    Qed.
  End TwoWith.

  Section OneWith.
    Variables (self : VerificationCircuit C) (ok : list bool -> Prop).
    Hypotheses (SH : shaped self) (HU : uniform ok (vc_inner self)) (HOk : ok (in_payload self)) (Hk : 2 <= p_k (vc_params self))
      (HG : good_generators (vc_params self)) (HS : starts_well (vc_params self)).
    Variable sums : list (C -> C -> C).
    Hypothesis HSm : Forall (fun sum => forall c1 c2 : C, valid c1 -> valid c2 -> valid (sum c1 c2)) sums.
    Lemma circuit_satisfied_with : (forall w, w (VA 1) = fone -> complete w (vc_synthesize_with (VA 1) (endo_chain_with (VA 1) sums) self) (fun _ => True)) ->
      exists s, laid_out true (fun one => vc_synthesize_with one (endo_chain_with one sums) self) s /\ satisfied s.
    Proof.
      apply (complete_lays_out OL (fun one => vc_synthesize_with one (endo_chain_with one sums) self)). intros V V1. eapply alike_tame. apply (circuits_alike_with self self ok SH SH eq_refl eq_refl eq_refl HU HOk Hk HG HS sums sums HSm V (VA 1) V1).
    Qed.
    Lemma circuit_inputs_with ran s : laid_out ran (fun one => vc_synthesize_with one (endo_chain_with one sums) self) s ->
      let bits := in_payload self ++ in_old self ++ in_new self ++ in_deferred self in
      l_inputs s = seq 1 (S (length bits)) /\ l_values s = (if ran then fone else fzero) :: map (fun b => if ran then fb b else fzero) bits.
    Proof.
      unfold laid_out. rewrite synthesize_split_with. intro E.
      apply lay_bind in E. destruct E as (s1 & pb & E1 & E). apply lay_bind in E. destruct E as (s2 & l1 & E2 & E).
      apply lay_bind in E. destruct E as (s3 & l2 & E3 & E). apply lay_bind in E. destruct E as (s4 & d & E4 & E).
      assert (O0 : only_inputs (layout0 (F := F) ran)) by reflexivity.
      destruct (lay_input_bits _ _ _ _ _ _ O0 E1) as (O1 & V1 & N1 & W1). destruct (lay_input_bits _ _ _ _ _ _ O1 E2) as (O2 & V2 & N2 & _).
      destruct (lay_input_bits _ _ _ _ _ _ O2 E3) as (O3 & V3 & N3 & _). destruct (lay_input_bits _ _ _ _ _ _ O3 E4) as (O4 & V4 & N4 & _).
      assert (HR : forall l, Forall2 (same_bit (fun _ => True)) l l) by (intro l; apply Forall2_same; intros; split; [reflexivity|exact I]).
      destruct (alike_no_inputs (fun _ => True) (fun _ _ => True) _ _ (fun _ => I)
        (tails_with self self ok SH SH eq_refl eq_refl HU HOk Hk HG HS sums sums HSm False (fun _ => True) (VA 1) I _ _ _ _ _ _ _ _ (HR pb) (HR l1) (HR l2) (HR d) W1) ran _ _ _ E) as (I5 & V5).
      cbv zeta. rewrite I5, V5, O4, V4, V3, V2, V1, N4, N3, N2, N1, !app_length. cbn [layout0 l_lcs l_values length]. split.
      - f_equal. lia.
      - rewrite !map_app, <- !app_assoc. destruct ran; reflexivity.
    Qed.
  End OneWith.

  Section Two.
    Variables (self self' : VerificationCircuit C) (ok : list bool -> Prop).
    Hypotheses (SH : shaped self) (SH' : shaped self') (EP : vc_params self' = vc_params self) (EI : vc_inner self' = vc_inner self)
      (EL : length (vc_new_payload self) = length (vc_new_payload self')) (HU : uniform ok (vc_inner self)) (HOk : ok (in_payload self')) (Hk : 2 <= p_k (vc_params self))
      (HG : good_generators (vc_params self)) (HS : starts_well (vc_params self)).
    Lemma tails inp (V : Var -> Prop) one (V1 : V one) pb pb' l1 l1' l2 l2' d d' : Forall2 (same_bit V) pb pb' -> Forall2 (same_bit V) l1 l1' -> Forall2 (same_bit V) l2 l2' -> Forall2 (same_bit V) d d' ->
      map bit_value pb' = map Some (in_payload self') ->
      alike inp V (fun _ _ => True) (vc_tail one self pb l1 l2 d) (vc_tail one self' pb' l1' l2' d').
    Proof. exact (tails_with self self' ok SH SH' EP EI HU HOk Hk HG HS [] [] (Forall_nil _) inp V one V1 pb pb' l1 l1' l2 l2' d d'). Qed.
    Lemma circuits_alike (V : Var -> Prop) one (V1 : V one) : alike True V (fun _ _ => True) (vc_synthesize one self) (vc_synthesize one self').
    Proof. exact (circuits_alike_with self self' ok SH SH' EP EI EL HU HOk Hk HG HS [] [] (Forall_nil _) V one V1). Qed.
    Lemma circuits_same_system ran s : laid_out ran (fun one => vc_synthesize one self) s ->
      exists t, laid_out false (fun one => vc_synthesize one self') t /\ same_system s t.
    Proof. exact (circuits_same_system_with self self' ok SH SH' EP EI EL HU HOk Hk HG HS [] [] (Forall_nil _) ran s). Qed.
  End Two.
  Section One.
    Variables (self : VerificationCircuit C) (ok : list bool -> Prop).
    Hypotheses (SH : shaped self) (HU : uniform ok (vc_inner self)) (HOk : ok (in_payload self)) (Hk : 2 <= p_k (vc_params self))
      (HG : good_generators (vc_params self)) (HS : starts_well (vc_params self)).
    Lemma circuit_satisfied : (forall w, w (VA 1) = fone -> complete w (vc_synthesize (VA 1) self) (fun _ => True)) ->
      exists s, laid_out true (fun one => vc_synthesize one self) s /\ satisfied s.
    Proof. exact (circuit_satisfied_with self ok SH HU HOk Hk HG HS [] (Forall_nil _)). Qed.
    Lemma circuit_inputs ran s : laid_out ran (fun one => vc_synthesize one self) s ->
      let bits := in_payload self ++ in_old self ++ in_new self ++ in_deferred self in
      l_inputs s = seq 1 (S (length bits)) /\ l_values s = (if ran then fone else fzero) :: map (fun b => if ran then fb b else fzero) bits.
    Proof. exact (circuit_inputs_with self ok SH HU HOk Hk HG HS [] (Forall_nil _) ran s). Qed.
  End One.
End Top.
