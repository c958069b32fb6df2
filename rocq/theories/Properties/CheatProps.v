(** C73: a dishonest prover needs no proof of the payload it continues from.  The
    circuit of the dishonest prover is in Spec/CheatSpec.v, the attacker's program
    [attack] and [can_attack] in Spec/AttackSpec.v, [ready], [history] and [accepts] in
    Spec/ChainSpec.v. *)
From Coq Require Import ZArith List Bool Arith Lia Ring.
From Verif Require Import Model.FieldTrait Model.FieldInst Model.Circuits Model.Boolean Model.Curve Model.Ecc Model.Threads Model.Util Model.Rescue Model.Params
  Model.Opening Model.Proofs Model.Recursion Model.RecursiveProof
  Spec.CircuitSpec Spec.BoolSpec Spec.CurveSpec Spec.UtilSpec Spec.SystemSpec Spec.ProofSpec Spec.RecursiveCircuitSpec Spec.UniformSpec Spec.ChainSpec
  Spec.FieldLaws Spec.CurveLaws Spec.SizeSpec Spec.CheatSpec Spec.AttackSpec
  Proofs.FieldGen Proofs.FpFq Proofs.CurveInst Proofs.ProverTop Proofs.ChainP Proofs.WideGensP Proofs.AttackP
  Properties.RecursiveCircuitProps Properties.RecursiveSystemProps Properties.SizeProps Properties.ChainProps.
Import ListNotations.
Open Scope nat_scope. Open Scope list_scope.

(** The circuit of Spec/CheatSpec.v is the code's circuit when the sums are honest, and
    it takes the payload, leftovers and deferred data in the same places. *)
Theorem C73_honest : forall (C : Curve) one,
  (forall p q : CurvePoint C, cp_add_with one c_add p q = cp_add one p q) /\
  (forall vc : VerificationCircuit C, vc_synthesize_with one (endo_chain_with one []) vc = vc_synthesize one vc).
Proof. intros C one. split; reflexivity. Qed.

(** The attacker makes a proof for the new payload, and [verify] accepts it on every
    machine.  (Or a search for a challenge with a square root did not end.) *)
Theorem C73_attack : forall E1 E2 (cy : Cycle E1 E2), halo_cycle E1 E2 cy -> forall P1 P2 c len ok M fuel old new,
  ready cy P1 P2 c len ok -> machine_ok M -> fuel <= 256 -> can_attack M P1 P2 c len ok old new ->
  (attack cy M fuel P1 P2 c old new = Running /\
     ((exists t, reached t /\ no_challenge (C := E1) fuel t) \/ exists t, reached t /\ no_challenge (C := E2) fuel t)) \/
  exists p, attack cy M fuel P1 P2 c old new = Done (Ok p) /\ rp_payload p = new /\
    forall M', machine_ok M' -> verify cy M' p P1 P2 c = Done (Ok true).
Proof.
  intros E1 E2 cy HC P1 P2 c len ok M fuel old new HR HM Hf HA. destruct HC.
  - destruct (attack_ripe halo_ec0 halo_ec1 cycle01 P1 P2 c len ok HR M fuel old new HM Hf HA) as [H|(p & H & E & Rp)]; [left; exact H|right]. exists p. split; [exact H|]. split; [exact E|].
    intros M' HM'. exact (ripe_verifies halo_ec0 halo_ec1 cycle01 P1 P2 c len ok HR M' p HM' Rp).
  - destruct (attack_ripe halo_ec1 halo_ec0 cycle10 P1 P2 c len ok HR M fuel old new HM Hf HA) as [H|(p & H & E & Rp)]; [left; exact H|right]. exists p. split; [exact H|]. split; [exact E|].
    intros M' HM'. exact (ripe_verifies halo_ec1 halo_ec0 cycle10 P1 P2 c len ok HR M' p HM' Rp).
Qed.
(** Others continue from it with [create_proof], as from an honest proof. *)
Theorem C73_continues : forall E1 E2 (cy : Cycle E1 E2), halo_cycle E1 E2 cy -> forall P1 P2 c len ok M M' fuel fuel' old new p next,
  ready cy P1 P2 c len ok -> machine_ok M -> fuel <= 256 -> can_attack M P1 P2 c len ok old new -> attack cy M fuel P1 P2 c old new = Done (Ok p) ->
  machine_ok M' -> can_continue P1 (swap_circuits c) len ok p next ->
  (create_proof (swap cy) M' fuel' P2 P1 (Some p) (swap_circuits c) next = Running /\ exists t, reached t /\ no_challenge (C := E2) fuel' t) \/
  exists p', create_proof (swap cy) M' fuel' P2 P1 (Some p) (swap_circuits c) next = Done (Ok p') /\
    (fuel' <= 256 -> forall M'', machine_ok M'' -> verify (swap cy) M'' p' P2 P1 (swap_circuits c) = Done (Ok true)).
Proof.
  intros E1 E2 cy HC P1 P2 c len ok M M' fuel fuel' old new p next HR HM Hf HA E HM' HN. destruct HC.
  - destruct (attack_ripe halo_ec0 halo_ec1 cycle01 P1 P2 c len ok HR M fuel old new HM Hf HA) as [(H & _)|(p0 & H & _ & Rp)]; [congruence|]. assert (p0 = p) as -> by congruence.
    pose proof (ready_swap _ _ _ _ _ _ HR) as HR'. assert (EC : c = swap_circuits (swap_circuits c)) by (destruct c; reflexivity). rewrite EC in Rp.
    destruct (next_ripe halo_ec1 halo_ec0 (swap cycle01) P2 P1 (swap_circuits c) len ok HR' M' fuel' p next HM' Rp HN) as [X|(p' & X & Y)]; [left; exact X|right].
    exists p'. split; [exact X|]. intros Hf' M'' HM''. exact (ripe_verifies halo_ec1 halo_ec0 (swap cycle01) P2 P1 (swap_circuits c) len ok HR' M'' p' HM'' (Y Hf')).
  - destruct (attack_ripe halo_ec1 halo_ec0 cycle10 P1 P2 c len ok HR M fuel old new HM Hf HA) as [(H & _)|(p0 & H & _ & Rp)]; [congruence|]. assert (p0 = p) as -> by congruence.
    pose proof (ready_swap _ _ _ _ _ _ HR) as HR'. assert (EC : c = swap_circuits (swap_circuits c)) by (destruct c; reflexivity). rewrite EC in Rp.
    destruct (next_ripe halo_ec0 halo_ec1 (swap cycle10) P2 P1 (swap_circuits c) len ok HR' M' fuel' p next HM' Rp HN) as [X|(p' & X & Y)]; [left; exact X|right].
    exists p'. split; [exact X|]. intros Hf' M'' HM''. exact (ripe_verifies halo_ec0 halo_ec1 (swap cycle10) P2 P1 (swap_circuits c) len ok HR' M'' p' HM'' (Y Hf')).
Qed.

(** An application that never changes its payload: every step it accepts keeps the bits. *)
Section Keeps.
  Context {F : Field} {q vb} (OL : OpsLaws F q vb).
  Add Ring Fr : (fring OL).
  Fixpoint wired (i : nat) (l : list bool) : list AllocatedBit := match l with [] => [] | b :: l => mkBit (Some b) (VB i) :: wired (S i) l end.
  Fixpoint wired' (i : nat) (l : list bool) : list AllocatedBit := match l with [] => [] | b :: l => mkBit (Some b) (VC i) :: wired' (S i) l end.
  Definition carries (old new : list bool) : assignment F :=
    fun x => match x with VA _ => fone | VB i => of_bit (nth i old false) | VC i => of_bit (nth i new false) end.
  Lemma wired_has old new : forall l i, skipn i old = l -> Forall2 (bit_has (carries old new)) (wired i l) l.
  Proof.
    induction l as [|b l IH]; intros i E; constructor.
    - split; [|reflexivity]. unfold bit_is. cbn [bit_var carries]. f_equal. rewrite <- (firstn_skipn i old) at 1. rewrite E, app_nth2; rewrite firstn_length; 
        (assert (i < length old) by (destruct (Nat.lt_ge_cases i (length old)); [assumption|rewrite skipn_all2 in E by assumption; discriminate])).
      + replace (i - Nat.min i (length old)) with 0 by lia. reflexivity.
      + lia.
    - apply IH. clear -E. revert i E. induction old as [|o old IH]; intros [|i] E; cbn [skipn] in *; try discriminate.
      + injection E as _ <-. reflexivity.
      + apply IH, E.
  Qed.
  Lemma wired_has' old new : forall l i, skipn i new = l -> Forall2 (bit_has (carries old new)) (wired' i l) l.
  Proof.
    induction l as [|b l IH]; intros i E; constructor.
    - split; [|reflexivity]. unfold bit_is. cbn [bit_var carries]. f_equal. rewrite <- (firstn_skipn i new) at 1. rewrite E, app_nth2; rewrite firstn_length;
        (assert (i < length new) by (destruct (Nat.lt_ge_cases i (length new)); [assumption|rewrite skipn_all2 in E by assumption; discriminate])).
      + replace (i - Nat.min i (length new)) with 0 by lia. reflexivity.
      + lia.
    - apply IH. clear -E. revert i E. induction new as [|o new IH]; intros [|i] E; cbn [skipn] in *; try discriminate.
      + injection E as _ <-. reflexivity.
      + apply IH, E.
  Qed.
  Lemma of_bit_inj a b : @of_bit F a = of_bit b -> a = b.
  Proof. pose proof (fone_neq_zero OL) as N. destruct a, b; cbn; intro H; try reflexivity; exfalso; [exact (N H)|exact (N (eq_sym H))]. Qed.
  (** the constraints of [keep] are those of [same_bits] and one more *)
  Lemma same_bits_run (w : assignment F) A (k : res unit -> Prog F A) r tr0 : Exec (k (Ok tt)) tr0 r -> forall ob old nb new, Forall2 (bit_has w) ob old -> Forall2 (bit_has w) nb new ->
    length old = length new -> exists tr, Exec (pbind (same_bits ob nb) k) (tr ++ tr0) r /\ witnessed w tr /\ (constraints_hold w tr -> old = new).
  Proof.
    intros H0 ob old nb new Ho. revert nb new. induction Ho as [|o b ob old [Hb _] Ho IH]; intros nb new Hn HL; destruct Hn as [|n b' nb new [Hb' _] Hn]; cbn [length] in HL; try discriminate.
    - exists []. split; [exact H0|]. split; [constructor|reflexivity].
    - destruct (IH nb new Hn ltac:(lia)) as (tr & E & W & X). exists (EvLC (lc_sub_v (lc_from (bit_var o)) (bit_var n)) :: tr). split; [|split].
      + cbn [same_bits]. unfold enforce_zero, bind. cbn [pbind app]. constructor. exact E.
      + constructor; [exact I|exact W].
      + intro HC. inversion HC as [|? ? H1 H2]; subst. rewrite (X H2). f_equal. apply of_bit_inj. unfold bit_is in *. rewrite <- Hb, <- Hb'. cbn in H1.
        transitivity (fadd (fadd (fmul fone (w (bit_var o))) (fadd (fmul (fneg fone) (w (bit_var n))) fzero)) (w (bit_var n))); [ring|]. rewrite H1. ring.
  Qed.
  Lemma keep_only base old new : length old = length new -> accepts (F := F) (keep base) old new -> old = new.
  Proof.
    intros HL HA. specialize (HA (carries old new) (VA 1) eq_refl (wired 0 old) (wired' 0 new) (wired_has old new old 0 eq_refl) (wired_has' old new new 0 eq_refl)).
    unfold keep in HA. cbn [inner_synthesize] in HA. unfold complete, bind in HA. 
    set (k := fun r : res unit => match r with Ok _ => _ | Err e => _ end) in HA.
    assert (X : exists tr0, Exec (k (Ok tt)) tr0 (Some (Ok tt)) /\ witnessed (carries old new) tr0).
    { unfold k. destruct (wired' 0 new); eexists; (split; [repeat constructor|repeat constructor]). }
    destruct X as (tr0 & E0 & W0).
    destruct (same_bits_run (carries old new) _ k _ _ E0 _ _ _ _ (wired_has old new old 0 eq_refl) (wired_has' old new new 0 eq_refl) HL) as (tr & E & W & Y).
    destruct (HA _ _ E) as (a & _ & HC & _); [apply Forall_app; split; assumption|]. apply Forall_app in HC. exact (Y (proj1 HC)).
  Qed.
End Keeps.
Lemma history_keeps len ok base E1 E2 (cy : Cycle E1 E2) P1 P2 c p : history len ok E1 E2 cy P1 P2 c p ->
  forall q1 vb1 q2 vb2, OpsLaws (Scalar E1) q1 vb1 -> OpsLaws (Scalar E2) q2 vb2 -> length base = 8 * len ->
  on_scalar1 c = keep base -> on_scalar2 c = keep base -> payload_ok len ok (rp_payload p) /\ flat_map byte_bits (rp_payload p) = base.
Proof.
  assert (HB : forall l, length (flat_map byte_bits l) = 8 * length l). { induction l as [|b l IH]; [reflexivity|]. cbn [flat_map]. rewrite app_length, IH. unfold byte_bits. rewrite map_length, seq_length. cbn [length]. lia. }
  assert (HP : forall E1 E2 (cy : Cycle E1 E2) M fuel P1 P2 o c payload p, create_proof cy M fuel P1 P2 o c payload = Done (Ok p) -> rp_payload p = payload).
  { clear. intros E1 E2 cy M fuel P1 P2 o c payload p E. unfold create_proof, out_try in E. 
    match type of E with out_bind ?X _ = _ => destruct X as [[[[[D l1] l2] forks]|e]| |] end; cbn [out_bind] in E; try discriminate.
    match type of E with out_bind ?X _ = _ => destruct X as [[[pf l]|e]| |] end; cbn [out_bind] in E; try discriminate. injection E as <-. reflexivity. }
  induction 1 as [E1 E2 cy P1 P2 c M fuel payload p HM Hf (HL & HAc & _) E|E1 E2 cy P1 P2 c M fuel old payload p HM Hf HH IH (HL & HAc & _) E]; intros q1 vb1 q2 vb2 O1 O2 Hb C1 C2.
  - rewrite (HP _ _ _ _ _ _ _ _ _ _ _ E). split; [exact HL|]. rewrite C1 in HAc. cbn [keep base_payload] in HAc. symmetry. apply (keep_only O1 base); [|exact HAc]. rewrite HB, (proj1 HL). exact Hb.
  - rewrite (HP _ _ _ _ _ _ _ _ _ _ _ E). split; [exact HL|]. destruct (IH _ _ _ _ O2 O1 Hb C2 C1) as (_ & EB). rewrite EB, C1 in HAc. symmetry. apply (keep_only O1 base); [|exact HAc]. rewrite HB, (proj1 HL). exact Hb.
Qed.
Definition other_bytes : list Z := [255; 1; 2; 3]%Z.
(** It is not so that an accepted proof shows a history of accepted steps: for the
    application whose payload stays the same four bytes, with parameters of size 22, the
    attacker makes an accepted proof for other bytes. *)
Theorem C73_history_refuted : exists (P1 : Params Ec0) (P2 : Params Ec1), let c := keep_both in ready cycle01 P1 P2 c 4 any_bits /\
  (forall p, history 4 any_bits Ec0 Ec1 cycle01 P1 P2 c p -> flat_map byte_bits (rp_payload p) = flat_map byte_bits keep_bytes) /\
  flat_map byte_bits other_bytes <> flat_map byte_bits keep_bytes /\
  forall M fuel, machine_ok M -> fuel <= 256 -> can_attack M P1 P2 c 4 any_bits other_bytes other_bytes /\
  ((exists t, reached t /\ no_challenge (C := Ec0) fuel t) \/ (exists t, reached t /\ no_challenge (C := Ec1) fuel t) \/
   exists p, attack cycle01 M fuel P1 P2 c other_bytes other_bytes = Done (Ok p) /\ rp_payload p = other_bytes /\
     forall M', machine_ok M' -> verify cycle01 M' p P1 P2 c = Done (Ok true)).
Proof.
  destruct (wide_params_exist Ec0_laws 22 ltac:(lia)) as (P1 & K1 & HP1 & A1 & HB1).
  destruct (wide_params_exist Ec1_laws 22 ltac:(lia)) as (P2 & K2 & HP2 & A2 & HB2).
  destruct (deferred_dummy_top Ec0_laws 22 magic_fp ltac:(lia)) as (D & ED & _).
  destruct (deferred_dummy_top Ec1_laws 22 magic_fq ltac:(lia)) as (OD & EOD & _).
  exists P1, P2. cbv zeta.
  assert (HR : ready cycle01 P1 P2 keep_both 4 any_bits).
  { split; [congruence|]. split.
    + apply (keep_half Ec0_laws Ec1_laws halo_ec1 cycle01 P1 P2 OD D _ K1 K2 HP1 HP2 A1 A2 HB1 HB2 EOD ED). reflexivity.
    + apply (keep_half Ec1_laws Ec0_laws halo_ec0 (swap cycle01) P2 P1 D OD _ K2 K1 HP2 HP1 A2 A1 HB2 HB1 ED EOD). reflexivity. }
  split; [exact HR|]. split.
  { intros p HH. apply (history_keeps _ _ _ _ _ _ _ _ _ _ HH _ _ _ _ (fl_ops _ _ _ Fp_laws) (fl_ops _ _ _ Fq_laws)); reflexivity. }
  split; [discriminate|]. intros M fuel HM Hf.
  assert (HA : can_attack M P1 P2 keep_both 4 any_bits other_bytes other_bytes).
  { split; [split; [reflexivity|exact I]|]. split; [split; [reflexivity|exact I]|]. split.
    - intros w one w1 ob nb Ho Hn. exact (keep_complete Ec1_laws _ w one w1 _ ob nb Ho Hn).
    - intros. apply HB2. }
  split; [exact HA|].
  destruct (C73_attack Ec0 Ec1 cycle01 halo_01 P1 P2 keep_both 4 any_bits M fuel other_bytes other_bytes HR HM Hf HA) as [(_ & [X|X])|X]; [left; exact X|right; left; exact X|right; right; exact X].
Qed.

Print Assumptions C73_honest.
Print Assumptions C73_attack.
Print Assumptions C73_continues.
Print Assumptions C73_history_refuted.
