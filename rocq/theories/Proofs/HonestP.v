(** Every circuit has an execution against a constraint system that runs every
    closure and records its values: the hypotheses of the completeness
    statements can always be met. *)
From Coq Require Import String List Bool Lia.
From Verif Require Import Model.FieldTrait Model.Circuits Spec.CircuitSpec.
Import ListNotations.

Section Honest.
  Context {F : Field}.
  (** [w'] differs from [w] at most on the variables [VA n], [VA (n+1)], ... *)
  Definition extends (n : nat) (w w' : assignment F) : Prop :=
    forall x, (forall k, x = VA k -> k < n) -> w' x = w x.
  Definition set (w : assignment F) (n : nat) (f : F) : assignment F :=
    fun x => match x with VA k => if Nat.eqb k n then f else w x | _ => w x end.
  Lemma extends_refl n w : extends n w w. Proof. intros x _. reflexivity. Qed.
  Lemma set_eq w n f : set w n f (VA n) = f.
  Proof. simpl. rewrite PeanoNat.Nat.eqb_refl. reflexivity. Qed.
  Lemma extends_set n w w' f : extends (S n) (set w n f) w' -> extends n w w' /\ w' (VA n) = f.
  Proof.
    intro H. split.
    - intros x Hx. rewrite H.
      + unfold set. destruct x as [k|k|k]; auto. destruct (PeanoNat.Nat.eqb_spec k n); auto.
        subst. specialize (Hx n eq_refl). lia.
      + intros k E. specialize (Hx k E). lia.
    - rewrite H; [apply set_eq|]. intros k E. injection E as <-. lia.
  Qed.
  Lemma honest_execution {A} (m : Prog F A) : forall n w, exists tr r w',
    Exec m tr r /\ witnessed w' tr /\ extends n w w'.
  Proof.
    induction m as [a| |s v k IH|s v k IH|lc k IH|s v k IH|s k IH|k IH]; intros n w.
    - exists [], (Some a), w. split; [constructor|]. split; [constructor|apply extends_refl].
    - exists [], None, w. split; [constructor|]. split; [constructor|apply extends_refl].
    - destruct v as [f|e].
      + destruct (IH (Ok (VA n, true)) (S n) (set w n f)) as (tr & r & w' & H1 & H2 & H3).
        apply extends_set in H3. destruct H3 as [H3 H4].
        exists (EvAlloc (VA n) (Some f) :: tr), r, w'. split; [constructor; exact H1|]. split; [|exact H3].
        constructor; [exact H4|exact H2].
      + destruct (IH (Err e) n w) as (tr & r & w' & H1 & H2 & H3).
        exists (EvErr e :: tr), r, w'. split; [constructor; exact H1|]. split; [|exact H3].
        constructor; [exact I|exact H2].
    - destruct v as [f|e].
      + destruct (IH (Ok (VA n, true)) (S n) (set w n f)) as (tr & r & w' & H1 & H2 & H3).
        apply extends_set in H3. destruct H3 as [H3 H4].
        exists (EvInput (VA n) (Some f) :: tr), r, w'. split; [constructor; exact H1|]. split; [|exact H3].
        constructor; [exact H4|exact H2].
      + destruct (IH (Err e) n w) as (tr & r & w' & H1 & H2 & H3).
        exists (EvErr e :: tr), r, w'. split; [constructor; exact H1|]. split; [|exact H3].
        constructor; [exact I|exact H2].
    - destruct (IH n w) as (tr & r & w' & H1 & H2 & H3).
      exists (EvLC lc :: tr), r, w'. split; [constructor; exact H1|]. split; [|exact H3].
      constructor; [exact I|exact H2].
    - destruct v as [[[fa fb] fc]|e].
      + destruct (IH (Ok (VA n, VA (S n), VA (S (S n)), true)) (S (S (S n))) (set (set (set w n fa) (S n) fb) (S (S n)) fc))
          as (tr & r & w' & H1 & H2 & H3).
        apply extends_set in H3. destruct H3 as [H3 H6]. apply extends_set in H3. destruct H3 as [H3 H5].
        apply extends_set in H3. destruct H3 as [H3 H4].
        exists (EvMul (VA n) (VA (S n)) (VA (S (S n))) (Some (fa, fb, fc)) :: tr), r, w'.
        split; [constructor; exact H1|]. split; [|exact H3].
        constructor; [exact (conj H4 (conj H5 H6))|exact H2].
      + destruct (IH (Err e) n w) as (tr & r & w' & H1 & H2 & H3).
        exists (EvErr e :: tr), r, w'. split; [constructor; exact H1|]. split; [|exact H3].
        constructor; [exact I|exact H2].
    - destruct (IH n w) as (tr & r & w' & H1 & H2 & H3).
      exists tr, r, w'. split; [constructor; exact H1|]. split; assumption.
    - destruct (IH n w) as (tr & r & w' & H1 & H2 & H3).
      exists tr, r, w'. split; [constructor; exact H1|]. split; assumption.
  Qed.
  (** A complete gadget really runs: from any assignment to the variables below
      [n], it succeeds with all its constraints satisfied. *)
  Lemma complete_runs {A} (m : CS F A) n w (Q : assignment F -> A -> Prop) :
    (forall w', extends n w w' -> complete w' m (Q w')) ->
    exists tr a w', Exec m tr (Some (Ok a)) /\ constraints_hold w' tr /\ extends n w w' /\ Q w' a.
  Proof.
    intro H. destruct (honest_execution m n w) as (tr & r & w' & H1 & H2 & H3).
    destruct (H w' H3 tr r H1 H2) as (a & -> & H4 & H5). exists tr, a, w'. tauto.
  Qed.
End Honest.
