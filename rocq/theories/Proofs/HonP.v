(** One judgement for the two readings of a circuit run with its own witness: it is
    satisfied (completeness), or, if it is satisfied, its checks passed. *)
From Coq Require Import String List Bool Arith.
From Verif Require Import Model.FieldTrait Model.Circuits Spec.CircuitSpec Spec.RecursiveCircuitSpec Proofs.CircuitP Proofs.LcP.
Import ListNotations.
Open Scope list_scope.

Section Hon.
  Context {F : Field}.
  Variable w : assignment F.
  Definition hon (md : bool) {A} (m : CS F A) (Q : A -> Prop) : Prop := if md then complete w m Q else satisfied_only_if w m Q.

  Lemma hon_of_complete md {A} (m : CS F A) Q : complete w m Q -> hon md m Q.
  Proof.
    intro H. destruct md; [exact H|]. intros tr a E W _. destruct (H _ _ E W) as (a' & Ea & _ & HQ). congruence.
  Qed.
  (** a check: complete if [P] holds, sound for [P] *)
  Lemma hon_check md {A} (m : CS F A) (P : Prop) : (P -> complete w m (fun _ => True)) -> sound w m (fun _ => P) -> (md = true -> P) -> hon md m (fun _ => P).
  Proof.
    intros H1 H2 H. destruct md.
    - specialize (H eq_refl). eapply complete_weaken; [exact (H1 H)|]. intros _ _. exact H.
    - intros tr a E _ HC. exact (H2 _ _ E HC).
  Qed.
  Lemma hon_ret md {A} (a : A) (Q : A -> Prop) : Q a -> hon md (ret a) Q.
  Proof. intro H. apply hon_of_complete, complete_ret, H. Qed.
  Lemma hon_bind md {A B} (m : CS F A) (f : A -> CS F B) (Q1 : A -> Prop) Q : hon md m Q1 -> (forall a, Q1 a -> hon md (f a) Q) -> hon md (bind m f) Q.
  Proof.
    destruct md; [apply complete_bind|]. intros H1 H2 tr b E W HC. apply exec_pbind in E.
    destruct E as [(t1 & t2 & [a|e] & -> & E1 & E2)|[E1 E]]; [|inversion E2|discriminate E].
    apply Forall_app in W. destruct W as [W1 W2]. apply Forall_app in HC. destruct HC as [C1 C2].
    exact (H2 a (H1 _ _ E1 W1 C1) _ _ E2 W2 C2).
  Qed.
  Lemma hon_bindc md {A B} (m : CS F A) (f : A -> CS F B) (Q1 : A -> Prop) Q : complete w m Q1 -> (forall a, Q1 a -> hon md (f a) Q) -> hon md (bind m f) Q.
  Proof. intro H. apply hon_bind, hon_of_complete, H. Qed.
  Lemma hon_weaken md {A} (m : CS F A) (Q1 Q : A -> Prop) : hon md m Q1 -> (forall a, Q1 a -> Q a) -> hon md m Q.
  Proof. destruct md; [apply complete_weaken|]. intros H H1 tr a E W HC. apply H1. exact (H _ _ E W HC). Qed.
  Lemma hon_ns md {A} s (m : CS F A) Q : hon md m Q -> hon md (namespace s m) Q.
  Proof. destruct md; [apply complete_namespace|]. intros H tr a E W HC. apply exec_namespace in E. exact (H _ _ E W HC). Qed.
  Lemma hon_nsb md {A B} s (m : CS F A) (f : A -> CS F B) (Q1 : A -> Prop) Q : hon md m Q1 -> (forall a, Q1 a -> hon md (f a) Q) -> hon md (bind (namespace s m) f) Q.
  Proof. intro H. apply hon_bind, hon_ns, H. Qed.
  Lemma hon_nsbc md {A B} s (m : CS F A) (f : A -> CS F B) (Q1 : A -> Prop) Q : complete w m Q1 -> (forall a, Q1 a -> hon md (f a) Q) -> hon md (bind (namespace s m) f) Q.
  Proof. intro H. apply hon_nsb, hon_of_complete, H. Qed.
  Lemma hon_assert_k md {B} b (k : unit -> CS F B) Q : b = true -> hon md (k tt) Q -> hon md (bind (assert_ b) k) Q.
  Proof. intros -> H. eapply (hon_bindc md (assert_ true) k (fun u => u = tt)); [apply complete_ret, eq_refl|]. intros u ->. exact H. Qed.
End Hon.
