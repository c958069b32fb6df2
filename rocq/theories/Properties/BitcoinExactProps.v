(** C66, C67 and C63 again: exactly which steps an honest prover of the Bitcoin example can
    prove; for which payloads its run ends; and what follows if the programs of the two
    examples end.  The specification is Spec/BitcoinRunSpec.v. *)
From Coq Require Import String List Bool ZArith Lia.
From Verif Require Import Model.FieldTrait Model.FieldInst Model.Circuits Model.Boolean Model.Curve Model.Threads Model.Util Model.Params Model.Opening Model.Recursion Model.RecursiveProof Model.Paper Model.Bitcoin
  Spec.FieldSpec Spec.FieldLaws Spec.CircuitSpec Spec.BoolSpec Spec.Sha256Spec Spec.BitcoinSpec Spec.BitcoinRunSpec
  Proofs.FpFq Proofs.BitcoinHonestP Proofs.BitcoinExactP Properties.BitcoinProps.
Import ListNotations.
Open Scope Z_scope. Open Scope list_scope.
Local Notation length := List.length.

(** An honest prover's values satisfy the circuit for exactly these steps. *)
Theorem C66_exact : forall (F : Field) p v, FieldLaws F p v ->
  forall (w : assignment F) (one : Var), w one = fone ->
  forall (old new : list AllocatedBit) (ob nb : list bool), Forall2 (bit_has w) old ob -> Forall2 (bit_has w) new nb ->
  (honestly_provable p ob nb -> complete w (bitcoin_synthesize one old new) (fun _ => True)) /\
  (forall tr a, Exec (bitcoin_synthesize one old new) tr (Some (Ok a)) -> witnessed w tr -> constraints_hold w tr -> honestly_provable p ob nb).
Proof.
  intros F p v FL w one W1 old new ob nb HO HN. split.
  - intros []. apply (bitcoin_complete FL one w W1 old new ob nb); assumption.
  - intros tr a E W C. destruct (bitcoin_exact FL one w W1 old new ob nb tr a HO HN E W C) as (A1 & A2 & A3 & A4 & A5 & A6 & A7 & A8 & A9).
    constructor; assumption.
Qed.
Print Assumptions C66_exact.
(** With known payloads, on any constraint system, the circuit runs to its end only if
    there is a target: the size is in range and the mantissa is not zero. *)
Theorem C66_runs : forall (F : Field) (w : assignment F) (one : Var) (old new : list AllocatedBit) (ob nb : list bool),
  Forall2 (bit_has w) old ob -> Forall2 (bit_has w) new nb ->
  forall tr a, Exec (bitcoin_synthesize (F := F) one old new) tr (Some (Ok a)) ->
  (928 <= length ob)%nat /\ (928 <= length nb)%nat /\ 4 <= size_of (header_of nb) <= 32 /\ mantissa_of (header_of nb) <> 0.
Proof. intros F w one old new ob nb HO HN. exact (bitcoin_runs one w old new ob nb HO HN). Qed.
Print Assumptions C66_runs.

Lemma step_asserted {E1 E2 : Curve} (cy : Cycle E1 E2) M M' fuel P1 P2 old input proof :
  bitcoin_step cy M M' fuel P1 P2 old input = Done proof <->
  create_proof cy M fuel P1 P2 old bitcoin_circuits input = Done (Ok proof) /\ verify cy M' proof P1 P2 bitcoin_circuits = Done (Ok true).
Proof.
  unfold bitcoin_step. split.
  - destruct (create_proof cy M fuel P1 P2 old bitcoin_circuits input) as [[pf|e]| |]; try discriminate. cbn [out_unwrap out_bind].
    destruct (verify cy M' pf P1 P2 bitcoin_circuits) as [[[|]|e]| |] eqn:EV; try discriminate. cbn. intro H. injection H as <-. auto.
  - intros (-> & H). cbn [out_unwrap out_bind]. rewrite H. reflexivity.
Qed.
(** The loop of examples/bitcoin.rs ends if and only if every block got a proof that the
    verifier accepted. *)
Theorem C67_asserted : forall (M : nat -> Machine) fuel (P0 : Params Ec0) (P1 : Params Ec1) blocks step i,
  bitcoin_loop M fuel P0 P1 step i blocks = Done tt <-> all_verified M fuel P0 P1 step i blocks.
Proof.
  intros M fuel P0 P1. induction blocks as [|[header work] blocks IH]; intros step i; [split; [constructor|reflexivity]|].
  cbn [bitcoin_loop]. split.
  - destruct step as [old|old].
    + destruct (bitcoin_step cycle10 _ _ _ _ _ _ _) as [pf| |] eqn:E; try discriminate. cbn [out_bind]. intro H. apply step_asserted in E as [E V].
      exact (av_a _ _ _ _ _ _ _ _ _ _ E V (proj1 (IH _ _) H)).
    + destruct (bitcoin_step cycle01 _ _ _ _ _ _ _) as [pf| |] eqn:E; try discriminate. cbn [out_bind]. intro H. apply step_asserted in E as [E V].
      exact (av_b _ _ _ _ _ _ _ _ _ _ E V (proj1 (IH _ _) H)).
  - intro H. inversion H as [|? ? ? ? ? pf EC EV ER|? ? ? ? ? pf EC EV ER]; subst; rewrite (proj2 (step_asserted _ _ _ _ _ _ _ _ pf) (conj EC EV)); cbn [out_bind]; apply IH, ER.
Qed.
Print Assumptions C67_asserted.
Lemma paper_asserted {E1 E2 : Curve} (cy : Cycle E1 E2) M M' fuel P1 P2 old proof :
  paper_step cy M M' fuel P1 P2 old = Done proof <->
  create_proof cy M fuel P1 P2 old my_circuits [0] = Done (Ok proof) /\ verify cy M' proof P1 P2 my_circuits = Done (Ok true).
Proof.
  unfold paper_step. split.
  - destruct (create_proof cy M fuel P1 P2 old my_circuits [0]) as [[pf|e]| |]; try discriminate. cbn [out_unwrap out_bind].
    destruct (verify cy M' pf P1 P2 my_circuits) as [[[|]|e]| |] eqn:EV; try discriminate. cbn. intro H. injection H as <-. auto.
  - intros (-> & H). cbn [out_unwrap out_bind]. rewrite H. reflexivity.
Qed.
Lemma bind_done {A B} (o : outcome A) (f : A -> outcome B) (b : B) : out_bind o f = Done b <-> exists a, o = Done a /\ f a = Done b.
Proof.
  split; [|intros (a & -> & H); exact H]. destruct o as [a| |]; try discriminate. intro H. exists a. auto.
Qed.
Lemma five {A B} (s1 : outcome A) (s2 : A -> outcome B) (s3 : B -> outcome A) (s4 : A -> outcome B) (s5 : B -> outcome A) :
  out_bind s1 (fun p1 => out_bind (s2 p1) (fun p2 => out_bind (s3 p2) (fun p3 => out_bind (s4 p3) (fun p4 => out_bind (s5 p4) (fun _ => Done tt))))) = Done tt <->
  exists p1 p2 p3 p4 p5, s1 = Done p1 /\ s2 p1 = Done p2 /\ s3 p2 = Done p3 /\ s4 p3 = Done p4 /\ s5 p4 = Done p5.
Proof.
  split.
  - intro H. apply bind_done in H as (p1 & E1 & H). apply bind_done in H as (p2 & E2 & H). apply bind_done in H as (p3 & E3 & H).
    apply bind_done in H as (p4 & E4 & H). apply bind_done in H as (p5 & E5 & _). exists p1, p2, p3, p4, p5. auto.
  - intros (p1 & p2 & p3 & p4 & p5 & -> & E2 & E3 & E4 & E5). cbn [out_bind]. rewrite E2. cbn [out_bind]. rewrite E3. cbn [out_bind]. rewrite E4. cbn [out_bind]. rewrite E5. reflexivity.
Qed.
(** The same for the five proofs of examples/paper.rs. *)
Theorem C63_asserted : forall (M : nat -> Machine) fuel (P0 : Params Ec0) (P1 : Params Ec1),
  paper_proofs M fuel P0 P1 = Done tt <-> paper_verified M fuel P0 P1.
Proof.
  intros M fuel P0 P1.
  pose proof (five (paper_step cycle10 (M 0%nat) (M 1%nat) fuel P1 P0 None) (fun p1 => paper_step cycle01 (M 2%nat) (M 3%nat) fuel P0 P1 (Some p1))
    (fun p2 => paper_step cycle10 (M 4%nat) (M 5%nat) fuel P1 P0 (Some p2)) (fun p3 => paper_step cycle01 (M 6%nat) (M 7%nat) fuel P0 P1 (Some p3))
    (fun p4 => paper_step cycle10 (M 8%nat) (M 9%nat) fuel P1 P0 (Some p4))) as X.
  split.
  - intro H. apply (proj1 X) in H. clear X. destruct H as (p1 & p2 & p3 & p4 & p5 & E1 & E2 & E3 & E4 & E5).
    pose proof (proj1 (paper_asserted cycle10 _ _ _ _ _ _ _) E1) as [A1 V1]. pose proof (proj1 (paper_asserted cycle01 _ _ _ _ _ _ _) E2) as [A2 V2].
    pose proof (proj1 (paper_asserted cycle10 _ _ _ _ _ _ _) E3) as [A3 V3]. pose proof (proj1 (paper_asserted cycle01 _ _ _ _ _ _ _) E4) as [A4 V4].
    pose proof (proj1 (paper_asserted cycle10 _ _ _ _ _ _ _) E5) as [A5 V5].
    exists p1, p2, p3, p4, p5. exact (conj A1 (conj V1 (conj A2 (conj V2 (conj A3 (conj V3 (conj A4 (conj V4 (conj A5 V5))))))))).
  - intros (p1 & p2 & p3 & p4 & p5 & A1 & V1 & A2 & V2 & A3 & V3 & A4 & V4 & A5 & V5). apply (proj2 X). clear X. exists p1, p2, p3, p4, p5.
    exact (conj (proj2 (paper_asserted cycle10 _ _ _ _ _ _ _) (conj A1 V1)) (conj (proj2 (paper_asserted cycle01 _ _ _ _ _ _ _) (conj A2 V2))
      (conj (proj2 (paper_asserted cycle10 _ _ _ _ _ _ _) (conj A3 V3)) (conj (proj2 (paper_asserted cycle01 _ _ _ _ _ _ _) (conj A4 V4)) (proj2 (paper_asserted cycle10 _ _ _ _ _ _ _) (conj A5 V5)))))).
Qed.
Print Assumptions C63_asserted.

(** *** The conditions are met by Bitcoin's first block *)
Example C66_exact_nonvacuous : honestly_provable p_modulus block0 block1.
Proof.
  destruct block1_extends. constructor.
  - vm_compute. repeat constructor.
  - vm_compute. repeat constructor.
  - assumption.
  - rewrite ec_hash. reflexivity.
  - assumption.
  - assumption.
  - vm_compute. discriminate.
  - vm_compute. repeat split.
  - rewrite ec_work. reflexivity.
Qed.
