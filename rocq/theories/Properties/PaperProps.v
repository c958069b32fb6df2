(** C63: an application whose circuit is small runs.  With parameters of size k >= 22
    made by [Params::new], the recursion is ready (C61) for every application whose
    circuit adds at most 700000 wires and 2000000 constraints; and the program
    examples/paper.rs ends without a panic.
    The program is Model/Paper.v; [ready], [can_start], [history] and [regular] are in
    Spec/ChainSpec.v. *)
From Coq Require Import ZArith String List Bool Arith Lia.
From Verif Require Import Model.FieldTrait Model.FieldInst Model.Circuits Model.Boolean Model.Curve Model.Threads Model.Util Model.Rescue Model.Params
  Model.Opening Model.Proofs Model.Recursion Model.RecursiveProof Model.Paper
  Spec.FieldLaws Spec.CircuitSpec Spec.BoolSpec Spec.CurveSpec Spec.CurveLaws Spec.UtilSpec Spec.SystemSpec Spec.ProofSpec Spec.RecursiveCircuitSpec Spec.UniformSpec Spec.SizeSpec Spec.ChainSpec
  Proofs.ParamsP Proofs.FieldGen Proofs.FpFq Proofs.CurveInst Proofs.CurveTop Proofs.CircuitP Proofs.UnpackP Proofs.ProverTop Proofs.UtilTop Proofs.CostP Proofs.WideGensP Proofs.ChainP
  Properties.ParamsProps Properties.ProverProps Properties.RecursiveCircuitProps Properties.RecursiveSystemProps Properties.SizeProps Properties.ChainProps.
Import ListNotations.
Open Scope nat_scope. Open Scope list_scope.
Local Notation length := List.length.

Lemma cast_fits C r (HC : halo_curve C r) {G : Field} (H : Base C = G) (P : Params C) (inner : RecursiveCircuit G) payload w l n d :
  inner_adds_at_most inner (8 * length payload) w l ->
  (24 * Z.of_nat (length payload) + 18 * Z.of_nat (length (base_payload inner)) + w <= 700000)%Z ->
  (32 * Z.of_nat (length payload) + 19 * Z.of_nat (length (base_payload inner)) + l <= 2000000)%Z ->
  22 <= p_k P -> 4 * n = 2 ^ p_k P -> d = 2 ^ p_k P ->
  forall t, laid_out false (cast (P := fun F => Var -> CS F unit) H (fun one => vc_synthesize one (mkVC P None (cast (P := RecursiveCircuit) (eq_sym H) inner) None payload None None None None))) t ->
  l_gates t < n /\ length (l_lcs t) < d.
Proof. destruct H. intros HI HW HL Hk Hn Hd t HT. exact (C62_fits C r HC P inner payload w l n d HI HW HL Hk Hn Hd false t HT). Qed.

Section Half.
  Context {E1 E2 : Curve} {r1 r2 : Z} (H1 : halo_curve E1 r1) (H2 : halo_curve E2 r2) (cy : Cycle E1 E2).
  Variables (P1 : Params E1) (P2 : Params E2) (c : BothCircuits E1 E2) (len : nat) (ok : list bool -> Prop) (w l : Z) (M : Machine) (payload : list Z).
  Hypotheses (Hk : 22 <= p_k P2) (Ek : p_k P1 = p_k P2) (HP1 : good_params P1)
    (A1 : Forall2 (fun G xy => represents G (Some xy)) (p_generators P1) (p_generators_xy P1))
    (A2 : Forall2 (fun G xy => represents G (Some xy)) (p_generators P2) (p_generators_xy P2))
    (S1 : starts_well P1) (S2 : starts_well P2) (HU : uniform ok (on_scalar1 c)) (HB : length (base_payload (on_scalar1 c)) = 8 * len)
    (HI : inner_adds_at_most (on_scalar1 c) (8 * len) w l) (HW : (168 * Z.of_nat len + w <= 700000)%Z) (HL : (184 * Z.of_nat len + l <= 2000000)%Z)
    (HM : machine_ok M) (HS : can_start M P1 P2 c len ok payload).
  Lemma half_is_ready : half_ready cy P1 P2 c len ok.
  Proof.
    constructor; try assumption.
    destruct HS as ([EL HOk] & HAc & HRg). pose proof HP1 as (K30 & Hd & Hn & _).
    assert (Hn1 : 1 <= p_n P1) by (pose proof (Nat.pow_nonzero 2 (p_k P1)); lia).
    destruct (C49_dummy_deferred E2 r2 H2 (p_k P2) ltac:(lia)) as (D & ED & _). destruct (dummy_exists E2 r2 H2 (p_k P2) ltac:(lia)) as (OD & EOD).
    destruct (C49_dummy_leftovers E1 r1 H1 M M HM HM P1 (fun _ => ret tt) (layout0 false) HP1 Hn1 eq_refl) as (l2 & El2 & (Ll2 & _) & _).
    destruct (dummy_smalls E2 r2 H2 _ D ED) as (D1 & D2 & D3). destruct (HRg l2 OD El2 EOD) as (B & HBc).
    assert (HG2 : good_generators P2) by (exists (p_generators P2); exact A2).
    set (inner := inner_for cy (on_scalar1 c)). assert (HUi : uniform ok inner) by (apply cast_uniform; exact HU).
    set (vc := mkVC P2 (Some true) inner None payload (Some (repeat 0 (p_k P2))) (Some (leftovers_to_bytes l2)) (Some (mkLeft (c_zero : E2) fzero c_zero (repeat fzero (p_k P2)))) (Some D)).
    assert (SH : shaped vc).
    { constructor; cbn [vc vc_proof vc_forkvalues vc_old_leftovers vc_new_leftovers vc_deferred vc_params].
      - discriminate.
      - intros fs E. assert (E' : fs = repeat 0 (p_k P2)) by congruence. rewrite E', repeat_length. apply le_n.
      - intros lb E. injection E as <-. rewrite (lengths_top E1 r1 H1), Ll2. lia.
      - intros L E. injection E as <-. apply repeat_length.
      - intros D0 E. injection E as <-. split; assumption. }
    assert (HCm : forall w : assignment (Base E2), w (VA 1) = fone -> complete w (vc_synthesize (VA 1) vc) (fun _ => True)).
    { intros wt w1. eapply (C58_base E2 r2 H2 (VA 1) wt w1 vc (leftovers_to_bytes l2) _ D (repeat 0 (p_k P2)) OD B); try reflexivity; cbn [vc vc_params vc_inner vc_new_payload]; try assumption.
      - lia.
      - unfold inner, inner_for. rewrite cast_payload. exact HBc.
      - apply repeat_length.
      - apply Forall_forall. intros x Hx. apply repeat_spec in Hx. lia.
      - apply repeat_length.
      - intros ob nb Ho Hn'. unfold inner, inner_for in *. rewrite cast_payload in Ho. exact (cast_accepts (cyc_base2 cy) _ _ _ HAc wt (VA 1) w1 ob nb Ho Hn'). }
    destruct (cast_prover H2 (cyc_base2 cy) vc ok (leftovers_to_bytes l2) _ D [] eq_refl eq_refl eq_refl SH HUi HOk ltac:(cbn [vc vc_params]; lia) HG2 S2 (Forall_nil _) HCm) as (s & _ & _ & _ & (t & HT & _) & _).
    cbn [vc vc_params vc_inner vc_new_payload] in HT.
    exists payload, t. split; [split; assumption|]. split; [exact HT|].
    apply (cast_fits E2 r2 H2 (cyc_base2 cy) P2 (on_scalar1 c) payload w l (p_n P1) (p_d P1)); rewrite ?EL, ?HB; try assumption; try lia.
    - rewrite <- Ek. exact Hn.
    - rewrite <- Ek. exact Hd.
  Qed.
End Half.
(** The recursion is ready for every application that is small and can start. *)
Theorem C63_ready : forall E1 E2 (cy : Cycle E1 E2), halo_cycle E1 E2 cy -> forall P1 P2 c len ok w l w' l' M payload payload',
  22 <= p_k P2 -> p_k P1 = p_k P2 -> made_params P1 -> made_params P2 -> starts_well P1 -> starts_well P2 ->
  uniform ok (on_scalar1 c) -> uniform ok (on_scalar2 c) ->
  length (base_payload (on_scalar1 c)) = 8 * len -> length (base_payload (on_scalar2 c)) = 8 * len ->
  inner_adds_at_most (on_scalar1 c) (8 * len) w l -> (168 * Z.of_nat len + w <= 700000)%Z -> (184 * Z.of_nat len + l <= 2000000)%Z ->
  inner_adds_at_most (on_scalar2 c) (8 * len) w' l' -> (168 * Z.of_nat len + w' <= 700000)%Z -> (184 * Z.of_nat len + l' <= 2000000)%Z ->
  machine_ok M -> can_start M P1 P2 c len ok payload -> can_start M P2 P1 (swap_circuits c) len ok payload' ->
  ready cy P1 P2 c len ok.
Proof.
  intros E1 E2 cy HC P1 P2 c len ok w l w' l' M payload payload' Hk Ek (HP1 & A1) (HP2 & A2) S1 S2 U1 U2 B1 B2 I1 W1 L1 I2 W2 L2 HM C1 C2.
  assert (Hk1 : 22 <= p_k P1) by lia. split; [exact Ek|]. destruct HC; split.
  - exact (half_is_ready halo_ec0 halo_ec1 cycle01 P1 P2 c len ok w l M payload Hk Ek HP1 A1 A2 S1 S2 U1 B1 I1 W1 L1 HM C1).
  - exact (half_is_ready halo_ec1 halo_ec0 (swap cycle01) P2 P1 (swap_circuits c) len ok w' l' M payload' Hk1 (eq_sym Ek) HP2 A2 A1 S2 S1 U2 B2 I2 W2 L2 HM C2).
  - exact (half_is_ready halo_ec1 halo_ec0 cycle10 P1 P2 c len ok w l M payload Hk Ek HP1 A1 A2 S1 S2 U1 B1 I1 W1 L1 HM C1).
  - exact (half_is_ready halo_ec0 halo_ec1 (swap cycle10) P2 P1 (swap_circuits c) len ok w' l' M payload' Hk1 (eq_sym Ek) HP2 A2 A1 S2 S1 U2 B2 I2 W2 L2 HM C2).
Qed.

(** *** examples/paper.rs *)
Lemma my_uniform {F : Field} ok : uniform ok (my_circuit (F := F)).
Proof.
  intros V one old new old' new' bits V1 Ho Hn _ _ _. cbn [my_circuit inner_synthesize]. rewrite <- (Forall2_length _ _ _ Ho), <- (Forall2_length _ _ _ Hn). unfold assert_.
  destruct (length old =? 8); [|apply al_panic]. destruct (length new =? 8); [|apply al_panic]. cbn. apply al_mul; [constructor|intros; apply al_ret; exact I].
Qed.
Lemma my_cost {F : Field} len : inner_adds_at_most (my_circuit (F := F)) len 2 0.
Proof.
  intros one old new _ _. apply uses_adds. cbn [my_circuit inner_synthesize]. apply uses_assertb. intros _. apply uses_assertb. intros _.
  apply uses_mulb. intros. apply uses_ret. unfold upto. lia.
Qed.
Lemma my_accepts C r : halo_curve C r -> accepts (F := Base C) my_circuit (repeat false 8) (flat_map byte_bits [0%Z]).
Proof.
  assert (X : forall (F : Field) p v, FieldLaws F p v -> accepts (F := F) my_circuit (repeat false 8) (flat_map byte_bits [0%Z])).
  { intros F p v FL w one w1 ob nb Ho Hn. cbn [my_circuit inner_synthesize]. rewrite (Forall2_length _ _ _ Ho), (Forall2_length _ _ _ Hn).
    change (complete w (bind (multiply "10^2" (Ok (f_from_u64 10, f_from_u64 10, f_from_u64 100))) (fun _ => ret tt)) (fun _ => True)).
    eapply (complete_bind w _ _ (fun _ => True)); [eapply complete_multiply; [reflexivity| |intros; exact I]|intros; apply complete_ret; exact I].
    apply (ol_inj _ _ _ (fl_ops _ _ _ FL)). rewrite (ol_mul _ _ _ (fl_ops _ _ _ FL)), !(fl_from_u64 _ _ _ FL) by (split; [lia|reflexivity]).
    apply Z.mod_small. split; [lia|]. eapply Z.lt_trans; [|apply (fl_size _ _ _ FL)]. reflexivity. }
  intros [|]; [exact (X _ _ _ Fq_laws)|exact (X _ _ _ Fp_laws)].
Qed.
Lemma created_payload {E1 E2 : Curve} (cy : Cycle E1 E2) M fuel P1 P2 old c payload p :
  create_proof cy M fuel P1 P2 old c payload = Done (Ok p) -> rp_payload p = payload.
Proof.
  unfold create_proof, out_try. generalize (match old with Some old_proof => out_bind (verify_inner (swap cy) M old_proof P2 P1 (swap_circuits c)) (fun r => match r with Ok a => let '(_, newdeferred, l1, l2, forkvalues) := a in Done (Ok (newdeferred, l1, l2, forkvalues)) | Err e => Done (Err e) end)
    | None => out_bind (out_opt (deferred_dummy (p_k P2))) (fun newdeferred => out_bind (out_opt (leftovers_dummy M P2)) (fun l1 => out_bind (out_opt (leftovers_dummy M P1)) (fun l2 => Done (Ok (newdeferred, l1, l2, repeat 0 (p_k P2)))))) end).
  intros [[[[[? ?] ?] ?]|?]| |]; cbn [out_bind]; try discriminate. destruct (proof_new _ _ _ _ _) as [[[? ?]|?]| |]; cbn [out_bind]; try discriminate. intro H. injection H as <-. reflexivity.
Qed.

Section Steps.
  Context {E1 E2 : Curve} (cy : Cycle E1 E2) (HC : halo_cycle E1 E2 cy).
  Variables (P1 : Params E1) (P2 : Params E2).
  Hypothesis HR : ready cy P1 P2 my_circuits 1 any_bits.
  Let done M M' fuel old : Prop := (paper_step cy M M' fuel P1 P2 old = Running /\ no_challenge_found fuel) \/
    exists p, paper_step cy M M' fuel P1 P2 old = Done p /\ rp_payload p = [0%Z] /\ history 1 any_bits E1 E2 cy P1 P2 my_circuits p.
  Lemma found fuel : (exists t, reached t /\ no_challenge (C := E1) fuel t) -> no_challenge_found fuel.
  Proof. destruct HC; intro H; [left|right]; exact H. Qed.
  Lemma step_accepts : accepts (on_scalar1 (@my_circuits E1 E2)) (repeat false 8) (flat_map byte_bits [0%Z]).
  Proof. destruct HC; [exact (my_accepts Ec1 _ halo_ec1)|exact (my_accepts Ec0 _ halo_ec0)]. Qed.
  Lemma step_ends M M' fuel old : machine_ok M' ->
    (create_proof cy M fuel P1 P2 old my_circuits [0%Z] = Running /\ exists t, reached t /\ no_challenge (C := E1) fuel t) \/
    (exists p, create_proof cy M fuel P1 P2 old my_circuits [0%Z] = Done (Ok p) /\ history 1 any_bits E1 E2 cy P1 P2 my_circuits p) -> done M M' fuel old.
  Proof.
    intros HM' [(E & H)|(p & E & H)]; unfold done, paper_step, out_unwrap; rewrite E; cbn [out_bind].
    - left. split; [reflexivity|]. apply found, H.
    - right. exists p. rewrite (C61_verifies E1 E2 cy HC P1 P2 my_circuits 1 any_bits M' p HR HM' H). cbn [out_bind out_assert]. split; [reflexivity|]. split; [exact (created_payload _ _ _ _ _ _ _ _ _ E)|exact H].
  Qed.
  Lemma step_first M M' fuel : machine_ok M -> machine_ok M' -> fuel <= 256 -> starts_regularly M P1 P2 (@my_circuits E1 E2) -> done M M' fuel None.
  Proof.
    intros HM HM' Hf HS. apply step_ends; [exact HM'|].
    assert (CS : can_start M P1 P2 my_circuits 1 any_bits [0%Z]) by (split; [split; [reflexivity|exact I]|]; split; [apply step_accepts|exact HS]).
    destruct (C61_first E1 E2 cy HC P1 P2 my_circuits 1 any_bits M fuel [0%Z] HR HM CS) as [H|(p & E)]; [left; exact H|right]. exists p. split; [exact E|].
    exact (history_first 1 any_bits E1 E2 cy P1 P2 my_circuits M fuel [0%Z] p HM Hf CS E).
  Qed.
  Lemma step_next M M' fuel old : machine_ok M -> machine_ok M' -> fuel <= 256 -> goes_on_regularly (swap cy) P2 P1 my_circuits 1 any_bits ->
    rp_payload old = [0%Z] -> history 1 any_bits E2 E1 (swap cy) P2 P1 my_circuits old -> done M M' fuel (Some old).
  Proof.
    intros HM HM' Hf HS EO HO. apply step_ends; [exact HM'|].
    assert (CC : can_continue P2 my_circuits 1 any_bits old [0%Z]) by (split; [split; [reflexivity|exact I]|]; split; [rewrite EO; apply step_accepts|apply HS, HO]).
    destruct (C61_next E1 E2 cy HC P1 P2 my_circuits 1 any_bits M fuel old [0%Z] HR HM HO CC) as [H|(p & E)]; [left; exact H|right]. exists p. split; [exact E|].
    exact (history_next 1 any_bits E1 E2 cy P1 P2 my_circuits M fuel old [0%Z] p HM Hf HO CC E).
  Qed.
  Definition ends fuel (o : outcome unit) : Prop := o = Done tt \/ (o = Running /\ no_challenge_found fuel).
  Lemma done_ends M M' fuel old (K : RecursiveProof E1 E2 -> outcome unit) : done M M' fuel old ->
    (forall p, rp_payload p = [0%Z] -> history 1 any_bits E1 E2 cy P1 P2 my_circuits p -> ends fuel (K p)) ->
    ends fuel (out_bind (paper_step cy M M' fuel P1 P2 old) K).
  Proof.
    unfold done. generalize (paper_step cy M M' fuel P1 P2 old). intros o [(-> & F)|(p & -> & Y & Q)] HK; cbn [out_bind].
    - right. split; [reflexivity|exact F].
    - exact (HK p Y Q).
  Qed.
  Lemma first_ends M M' fuel (K : RecursiveProof E1 E2 -> outcome unit) : machine_ok M -> machine_ok M' -> fuel <= 256 -> starts_regularly M P1 P2 (@my_circuits E1 E2) ->
    (forall p, rp_payload p = [0%Z] -> history 1 any_bits E1 E2 cy P1 P2 my_circuits p -> ends fuel (K p)) ->
    ends fuel (out_bind (paper_step cy M M' fuel P1 P2 None) K).
  Proof. intros HM HM' Hf HS. apply done_ends, step_first; assumption. Qed.
  Lemma next_ends M M' fuel old (K : RecursiveProof E1 E2 -> outcome unit) : machine_ok M -> machine_ok M' -> fuel <= 256 -> goes_on_regularly (swap cy) P2 P1 my_circuits 1 any_bits ->
    rp_payload old = [0%Z] -> history 1 any_bits E2 E1 (swap cy) P2 P1 my_circuits old ->
    (forall p, rp_payload p = [0%Z] -> history 1 any_bits E1 E2 cy P1 P2 my_circuits p -> ends fuel (K p)) ->
    ends fuel (out_bind (paper_step cy M M' fuel P1 P2 (Some old)) K).
  Proof. intros HM HM' Hf HS EO HO. apply done_ends, step_next; assumption. Qed.
End Steps.

Lemma proofs_done (M : nat -> Machine) fuel (P0 : Params Ec0) (P1 : Params Ec1) :
  (forall i, machine_ok (M i)) -> fuel <= 256 -> 22 <= p_k P0 -> p_k P1 = p_k P0 -> made_params P0 -> made_params P1 ->
  starts_well P0 -> starts_well P1 -> starts_regularly (M 0) P1 P0 my_circuits -> starts_regularly (M 0) P0 P1 my_circuits ->
  goes_on_regularly cycle10 P1 P0 my_circuits 1 any_bits -> goes_on_regularly cycle01 P0 P1 my_circuits 1 any_bits ->
  paper_proofs M fuel P0 P1 = Done tt \/ (paper_proofs M fuel P0 P1 = Running /\ no_challenge_found fuel).
Proof.
  intros HM Hf K EK M0 M1 S0 S1 T1 T0 G1 G0.
  assert (C1 : can_start (M 0) P1 P0 (@my_circuits Ec1 Ec0) 1 any_bits [0%Z]) by (split; [split; [reflexivity|exact I]|]; split; [exact (my_accepts Ec0 _ halo_ec0)|exact T1]).
  assert (C0 : can_start (M 0) P0 P1 (@my_circuits Ec0 Ec1) 1 any_bits [0%Z]) by (split; [split; [reflexivity|exact I]|]; split; [exact (my_accepts Ec1 _ halo_ec1)|exact T0]).
  assert (HR10 : ready cycle10 P1 P0 my_circuits 1 any_bits).
  { apply (C63_ready Ec1 Ec0 cycle10 halo_10 P1 P0 my_circuits 1 any_bits 2 0 2 0 (M 0) [0%Z] [0%Z]); try assumption; try (intros; apply my_uniform); try (exact (my_cost _)); try reflexivity; try lia; try congruence. apply HM. }
  pose proof (ready_swap cycle10 P1 P0 my_circuits 1 any_bits HR10) as HR01.
  change (ends fuel (paper_proofs M fuel P0 P1)). unfold paper_proofs.
  apply (first_ends cycle10 halo_10 P1 P0 HR10); [apply HM|apply HM|exact Hf|exact T1|]. intros p1 Y1 Q1.
  apply (next_ends cycle01 halo_01 P0 P1 HR01); [apply HM|apply HM|exact Hf|exact G1|exact Y1|exact Q1|]. intros p2 Y2 Q2.
  apply (next_ends cycle10 halo_10 P1 P0 HR10); [apply HM|apply HM|exact Hf|exact G0|exact Y2|exact Q2|]. intros p3 Y3 Q3.
  apply (next_ends cycle01 halo_01 P0 P1 HR01); [apply HM|apply HM|exact Hf|exact G1|exact Y3|exact Q3|]. intros p4 Y4 Q4.
  apply (next_ends cycle10 halo_10 P1 P0 HR10); [apply HM|apply HM|exact Hf|exact G0|exact Y4|exact Q4|]. intros p5 _ _.
  left. reflexivity.
Qed.
Lemma new_params C r (HC : halo_curve C r) rng fuel k (P : Params C) : k <= 30 -> (forall i j, random (rng i j)) -> params_new rng fuel k = Done P -> made_params P /\ p_k P = k.
Proof.
  intros Hk HR HE. destruct (C53_params_new C r HC rng fuel k P HR HE) as (_ & K & Hd & Hn & HL & HA & _). split; [|exact K]. split; [|exact HA].
  unfold good_params. rewrite K. split; [exact Hk|]. split; [exact Hd|]. split; [exact Hn|]. split; [exact HL|]. clear - HA. induction HA; constructor; [eexists; eassumption|assumption].
Qed.
Lemma main_cases {A B} fuel (o0 : outcome A) (o1 : outcome B) (K : A -> B -> outcome unit) : o0 <> Panicked -> o1 <> Panicked ->
  (forall a b, o0 = Done a -> o1 = Done b -> ends fuel (K a b)) ->
  let main := out_bind o0 (fun a => out_bind o1 (fun b => K a b)) in
  main = Done tt \/ (main = Running /\ (o0 = Running \/ o1 = Running \/ no_challenge_found fuel)).
Proof.
  intros N0 N1 H. destruct o0 as [a| |]; cbn [out_bind]; [|contradiction|right; split; [reflexivity|left; reflexivity]].
  destruct o1 as [b| |]; cbn [out_bind]; [|contradiction|right; split; [reflexivity|right; left; reflexivity]].
  destruct (H a b eq_refl eq_refl) as [E|(E & F)]; [left; exact E|right; split; [exact E|right; right; exact F]].
Qed.
Lemma main_done (M : nat -> Machine) fuel rng0 rng1 k : 22 <= k -> k <= 30 ->
  (forall i, machine_ok (M i)) -> fuel <= 256 -> (forall i j, random (rng0 i j)) -> (forall i j, random (rng1 i j)) ->
  (forall i j, rng0 i j <> repeat 0%Z 32) -> (forall i j, rng1 i j <> repeat 0%Z 32) ->
  (forall P0 P1, params_new (C := Ec0) rng0 fuel k = Done P0 -> params_new (C := Ec1) rng1 fuel k = Done P1 ->
     starts_well P0 /\ starts_well P1 /\
     starts_regularly (M 0) P1 P0 my_circuits /\ starts_regularly (M 0) P0 P1 my_circuits /\
     goes_on_regularly cycle10 P1 P0 my_circuits 1 any_bits /\ goes_on_regularly cycle01 P0 P1 my_circuits 1 any_bits) ->
  let main := out_bind (params_new (C := Ec0) rng0 fuel k) (fun params0 => out_bind (params_new (C := Ec1) rng1 fuel k) (fun params1 => paper_proofs M fuel params0 params1)) in
  main = Done tt \/
  (main = Running /\ (params_new (C := Ec0) rng0 fuel k = Running \/ params_new (C := Ec1) rng1 fuel k = Running \/ no_challenge_found fuel)).
Proof.
  intros Hk Hk' HM Hf R0 R1 Z0 Z1 HX.
  apply main_cases.
  - intro E0. destruct (C53_params_new_panics Ec0 _ halo_ec0 rng0 fuel k R0 E0) as [H|(i & j & H)]; [lia|destruct (Z0 _ _ H)].
  - intro E1. destruct (C53_params_new_panics Ec1 _ halo_ec1 rng1 fuel k R1 E1) as [H|(i & j & H)]; [lia|destruct (Z1 _ _ H)].
  - intros P0 P1 E0 E1. destruct (HX P0 P1 E0 E1) as (S0 & S1 & T1 & T0 & G1 & G0). clear HX.
    destruct (new_params _ _ halo_ec0 rng0 fuel k P0 Hk' R0 E0) as (M0 & K0). destruct (new_params _ _ halo_ec1 rng1 fuel k P1 Hk' R1 E1) as (M1 & K1). clear E0 E1.
    apply proofs_done; try assumption; congruence.
Qed.

(** The program ends normally.  Otherwise: random points were not found, or the search
    for a challenge failed, both within the given number of tries. *)
Theorem C63_paper : forall (M : nat -> Machine) fuel rng0 rng1,
  (forall i, machine_ok (M i)) -> fuel <= 256 -> (forall i j, random (rng0 i j)) -> (forall i j, random (rng1 i j)) ->
  (forall i j, rng0 i j <> repeat 0%Z 32) -> (forall i j, rng1 i j <> repeat 0%Z 32) ->
  (forall P0 P1, params_new (C := Ec0) rng0 fuel 22 = Done P0 -> params_new (C := Ec1) rng1 fuel 22 = Done P1 ->
     starts_well P0 /\ starts_well P1 /\
     starts_regularly (M 0) P1 P0 my_circuits /\ starts_regularly (M 0) P0 P1 my_circuits /\
     goes_on_regularly cycle10 P1 P0 my_circuits 1 any_bits /\ goes_on_regularly cycle01 P0 P1 my_circuits 1 any_bits) ->
  paper_main M fuel rng0 rng1 = Done tt \/
  (paper_main M fuel rng0 rng1 = Running /\
   (params_new (C := Ec0) rng0 fuel 22 = Running \/ params_new (C := Ec1) rng1 fuel 22 = Running \/ no_challenge_found fuel)).
Proof. intros M fuel rng0 rng1. refine (main_done M fuel rng0 rng1 22 _ _); repeat constructor. Qed.
(** Parameters of size 22 for which all that is asked of the parameters holds *)
Example C63_nonvacuous : exists (P0 : Params Ec0) (P1 : Params Ec1), p_k P0 = 22 /\ p_k P1 = 22 /\ made_params P0 /\ made_params P1 /\
  starts_well P0 /\ starts_well P1 /\ (forall M, starts_regularly M P1 P0 my_circuits /\ starts_regularly M P0 P1 my_circuits) /\
  goes_on_regularly cycle10 P1 P0 my_circuits 1 any_bits /\ goes_on_regularly cycle01 P0 P1 my_circuits 1 any_bits /\ ready cycle10 P1 P0 my_circuits 1 any_bits.
Proof.
  destruct (wide_params_exist Ec0_laws 22 ltac:(lia)) as (P0 & K0 & HP0 & A0 & HB0).
  destruct (wide_params_exist Ec1_laws 22 ltac:(lia)) as (P1 & K1 & HP1 & A1 & HB1).
  assert (S0 : starts_well P0) by (destruct (HB0 [true]) as (B & HB); exact (bits_commitment_starts Ec0_laws P0 true [] _ HB)).
  assert (S1 : starts_well P1) by (destruct (HB1 [true]) as (B & HB); exact (bits_commitment_starts Ec1_laws P1 true [] _ HB)).
  exists P0, P1. split; [exact K0|]. split; [exact K1|]. split; [split; assumption|]. split; [split; assumption|]. split; [exact S0|]. split; [exact S1|].
  split; [intro M; split; intros L OD _ _; [apply HB0|apply HB1]|]. split; [intros p _; apply HB1|]. split; [intros p _; apply HB0|].
  apply (C63_ready Ec1 Ec0 cycle10 halo_10 P1 P0 my_circuits 1 any_bits 2 0 2 0 machine3 [0%Z] [0%Z]); try (intros; apply my_uniform); try (exact (my_cost _)); try (split; assumption); try assumption; try reflexivity; try lia; try congruence.
  - exact machine3_top.
  - split; [split; [reflexivity|exact I]|]. split; [exact (my_accepts Ec0 _ halo_ec0)|intros L OD _ _; apply HB0].
  - split; [split; [reflexivity|exact I]|]. split; [exact (my_accepts Ec1 _ halo_ec1)|intros L OD _ _; apply HB1].
Qed.

Print Assumptions C63_ready.
Print Assumptions C63_paper.
