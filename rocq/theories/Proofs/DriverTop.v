(** Statements about the driver and dev.rs in the form used by Properties. *)
From Coq Require Import String List Bool Arith Lia ZArith.
From Verif Require Import Model.FieldTrait Model.FieldInst Model.Circuits Model.Synthesis Model.Dev Spec.FieldLaws
  Spec.CircuitSpec Spec.ExprSpec Spec.DriverSpec Spec.DevSpec Proofs.FieldGen Proofs.DriverP Proofs.DevP
  Proofs.IsSatP Proofs.IsSatProgressP.
Import ListNotations.
Open Scope nat_scope.
Open Scope list_scope.

Lemma driver_witness {F : Field} p v : FieldLaws F p v -> forall circuit st r,
  basic_synthesize (assignment_backend F) assignment0 circuit = Some (st, r) ->
  exists tr, Exec (circuit (VA 1)) tr (Some r) /\ NoDup (VA 1 :: trace_vars tr) /\
    let asg := backend st in let w := of_vectors (as_a asg) (as_b asg) (as_c asg) in
    length (as_a asg) = sn st /\ length (as_b asg) = sn st /\ length (as_c asg) = sn st /\
    Forall (in_vectors (as_a asg) (as_b asg) (as_c asg)) (VA 1 :: trace_vars tr) /\
    w (VA 1) = fone /\ witnessed w tr /\
    forall i, 1 <= i <= sn st -> fmul (w (VA i)) (w (VB i)) = w (VC i) \/
      exists o, In (EvMul (VA i) (VB i) (VC i) o) tr.
Proof.
  intros FL circuit st r H. destruct (basic_asg FL circuit st r H) as (tr & He & HA).
  pose proof HA as [HG (N0 & N1 & N2 & N3 & N4) (Q1 & Q2) Hf Hp Hr Hg Hl Hk Hi].
  exists tr. split; [exact He|]. split; [exact (g_nodup _ _ _ HG)|]. cbv zeta.
  split; [exact N1|]. split; [exact N2|]. split; [exact N3|]. split.
  { apply Forall_forall. intros x Hx. pose proof (used_index _ x _ HG Hx) as Hu.
    destruct x; simpl in *; lia. }
  unfold witnessed in Hr. apply Forall_cons_iff in Hr. destruct Hr as [Hone Hr].
  split; [exact Hone|]. split; [exact Hr|]. intros i Hi1. destruct (Hg i) as [Hg1|[o Ho]]; [lia|left; exact Hg1|].
  right. exists o. destruct Ho as [Ho|Ho]; [discriminate Ho|exact Ho].
Qed.

Lemma driver_accounting {F : Field} (B : Backend F) (b : BState B) circuit s r :
  basic_synthesize B b circuit = Some (s, r) ->
  exists calls tr,
    basic_synthesize (logged B) (b, []) circuit
      = Some (@mkSynth F (logged B) (backend s, calls) (current_variable s) (sq s) (sn s), r) /\
    Exec (circuit (VA 1)) tr (Some r) /\
    NoDup (VA 1 :: trace_vars tr) /\ Forall gate_shaped tr /\
    length (filter is_gate_call calls) = sn s /\
    (Forall (fun ev => ~ failed ev) tr ->
       sn s = count_gates tr + (count_allocs tr + 2) / 2 /\
       sq s = S (length (trace_lcs tr)) /\
       filter about_lc calls = expected_calls 0 (EvInput (VA 1) (Some fone) :: tr)).
Proof.
  intro H. destruct (driver_spec B b circuit s r H) as (b' & calls & tr & H1 & -> & H2).
  exists calls, tr. tauto.
Qed.

(** a circuit whose constraints the honest witness satisfies *)
Lemma is_satisfied_honest {F : Field} p v : FieldLaws F p v -> forall (circuit : Var -> CS F unit) inputs,
  well_behaved [VA 1] 0 (circuit (VA 1)) ->
  (forall w, w (VA 1) = fone -> complete w (circuit (VA 1)) (fun _ => True)) ->
  (forall tr w, Exec (circuit (VA 1)) tr (Some (Ok tt)) -> witnessed w tr ->
     map w (input_vars tr) = inputs) ->
  is_satisfied circuit inputs = Some SatTrue.
Proof.
  intros FL circuit inputs W C I.
  destruct (is_satisfied_progress FL circuit inputs W) as [res E]. rewrite E. f_equal.
  destruct (is_satisfied_spec FL circuit inputs res E) as (tr & r & w & He & _ & Hw & Hone & V).
  destruct (C w Hone tr (Some r) He Hw) as ([] & Hr & Hc & _). injection Hr as ->.
  pose proof (I tr w He Hw) as Hin.
  assert (Hlen : length inputs = length (input_vars tr)) by (rewrite <- Hin; apply map_length).
  destruct res as [|[e|got exp|pth x y z|pth l k]]; [reflexivity| | | |]; exfalso; simpl in V.
  - discriminate V.
  - destruct V as (_ & -> & -> & V). auto.
  - destruct V as (_ & _ & a & b & c & o & Hin' & -> & -> & -> & V). apply V.
    apply constraints_split in Hc. destruct Hc as [Hg _]. exact (Hg _ _ _ _ Hin').
  - destruct V as (_ & _ & _ & V & [(lc & H1 & -> & ->)|(i & x & H1 & -> & H2)]); apply V.
    + apply constraints_split in Hc. destruct Hc as [_ Hl]. exact (Hl _ H1).
    + apply (map_nth_error w) in H1. rewrite Hin, H2 in H1. injection H1. auto.
Qed.
