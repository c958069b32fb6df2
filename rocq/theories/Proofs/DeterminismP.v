(** dev.rs: determinism_check; namespaces. *)
From Coq Require Import String List Bool Arith Lia ZArith Ring Field.
From Verif Require Import Model.FieldTrait Model.Circuits Model.Synthesis Model.Dev Spec.FieldLaws
  Spec.CircuitSpec Spec.DriverSpec Spec.DevSpec Proofs.FieldGen Proofs.DriverP.
Import ListNotations.
Open Scope nat_scope.
Open Scope list_scope.

Section Det.
  Context {F : Field} {p : Z} {v : F -> Z} (FL : FieldLaws F p v).
  Let OL : OpsLaws F p v := fl_ops _ _ _ FL.

  Definition op_of (e : DEvent F) : op F :=
    match e with DAlloc => OpAlloc | DInputAlloc => OpInput | DMultiplication => OpMul | DEnforceZero l => OpLC l end.

  Lemma record_ops {A} (q : Prog F A) : forall n evs,
    match record_run q n evs with
    | None => snd (operations false n q) = None
    | Some (_, evs', a) => exists l, evs' = evs ++ l /\ operations false n q = (map op_of l, Some a)
    end.
  Proof.
    induction q as [a| |ann val k IH|ann val k IH|lc k IH|ann val k IH|nm k IH|k IH]; intros n evs; simpl.
    - exists []. rewrite app_nil_r. auto.
    - reflexivity.
    - specialize (IH (Ok (VA n, false)) (S n) (evs ++ [DAlloc])).
      destruct (record_run _ _ _) as [[[n' evs'] a]|].
      + destruct IH as (l & -> & E). exists (DAlloc :: l). rewrite <- app_assoc.
        split; [reflexivity|]. destruct val; rewrite E; reflexivity.
      + destruct val; exact IH.
    - specialize (IH (Ok (VA n, false)) (S n) (evs ++ [DInputAlloc])).
      destruct (record_run _ _ _) as [[[n' evs'] a]|].
      + destruct IH as (l & -> & E). exists (DInputAlloc :: l). rewrite <- app_assoc.
        split; [reflexivity|]. destruct val; rewrite E; reflexivity.
      + destruct val; exact IH.
    - specialize (IH n (evs ++ [DEnforceZero lc])).
      destruct (record_run _ _ _) as [[[n' evs'] a]|].
      + destruct IH as (l & -> & E). exists (DEnforceZero lc :: l). rewrite <- app_assoc.
        split; [reflexivity|]. rewrite E. reflexivity.
      + exact IH.
    - specialize (IH (Ok (VA n, VA (S n), VA (S (S n)), false)) (S (S (S n))) (evs ++ [DMultiplication])).
      destruct (record_run _ _ _) as [[[n' evs'] a]|].
      + destruct IH as (l & -> & E). exists (DMultiplication :: l). rewrite <- app_assoc.
        split; [reflexivity|]. destruct val; rewrite E; reflexivity.
      + destruct val; exact IH.
    - apply IH.
    - apply IH.
  Qed.

  Lemma coeff_eqb_eq (c d : Coeff F) : coeff_eqb c d = true <-> c = d.
  Proof.
    destruct c, d; simpl; split; intro H; try discriminate; try reflexivity.
    - f_equal. apply (feqb_eq OL). exact H.
    - injection H as ->. apply (feqb_eq OL). reflexivity.
  Qed.
  Lemma lc_same_iff (a b : LC F) : lc_same a b = true <-> same_op (OpLC a) (OpLC b).
  Proof.
    revert b. induction a as [|[x c] a IH]; intros [|[y d] b]; simpl; split; intro H;
      try discriminate; try (inversion H; fail); try constructor; auto.
    - apply andb_true_iff in H. destruct H as [H _]. apply andb_true_iff in H. destruct H as [H1 H2].
      apply Nat.eqb_eq in H1. apply coeff_eqb_eq in H2. auto.
    - apply andb_true_iff in H. destruct H as [_ H]. apply IH in H. exact H.
    - inversion H as [|t t' l l' [H1 H2] H3]; subst. simpl in *. subst.
      rewrite (proj2 (IH b) H3). change get_index with index_of. rewrite H1, Nat.eqb_refl.
      rewrite (proj2 (coeff_eqb_eq d d) eq_refl). reflexivity.
  Qed.

  Lemma enforce_ops {A} (q : Prog F A) : forall n evs,
    match enforce_run q n evs with
    | None => snd (operations true n q) = None \/
              ~ exists l1 l2, evs = l1 ++ l2 /\ Forall2 same_op (map op_of l1) (fst (operations true n q))
    | Some (_, _, a) => snd (operations true n q) = Some a /\
         exists l1 l2, evs = l1 ++ l2 /\ Forall2 same_op (map op_of l1) (fst (operations true n q))
    end.
  Proof.
    assert (Hcons : forall X (r : option X) e o ops evs (P : X -> Prop) (Q : Prop),
      same_op (op_of e) o ->
      match r with None => Q \/ ~ (exists l1 l2, evs = l1 ++ l2 /\ Forall2 same_op (map op_of l1) ops)
              | Some a => P a /\ exists l1 l2, evs = l1 ++ l2 /\ Forall2 same_op (map op_of l1) ops end ->
      match r with None => Q \/ ~ (exists l1 l2, e :: evs = l1 ++ l2 /\ Forall2 same_op (map op_of l1) (o :: ops))
              | Some a => P a /\ exists l1 l2, e :: evs = l1 ++ l2 /\ Forall2 same_op (map op_of l1) (o :: ops) end).
    { intros X [a|] e o ops evs P Q Hs H.
      - destruct H as [HP (l1 & l2 & -> & H)]. split; [exact HP|]. exists (e :: l1), l2.
        split; [reflexivity|]. constructor; assumption.
      - destruct H as [H|H]; [left; exact H|right]. intros (l1 & l2 & E & H'). apply H.
        destruct l1 as [|e' l1]; [inversion H'|]. simpl in *. injection E as -> ->. inversion H'; subst. eauto. }
    assert (Hbad : forall o ops evs (X : Prop), (match evs with e :: _ => ~ same_op (op_of e) o | [] => True end) ->
      X \/ ~ (exists l1 l2, evs = l1 ++ l2 /\ Forall2 same_op (map op_of l1) (o :: ops))).
    { intros o ops evs X H. right. intros (l1 & l2 & -> & H'). destruct l1 as [|e l1]; [inversion H'|].
      simpl in *. inversion H'; subst. contradiction. }
    induction q as [a| |ann val k IH|ann val k IH|lc k IH|ann val k IH|nm k IH|k IH]; intros n evs; simpl.
    - split; [reflexivity|]. exists [], evs. split; [reflexivity|constructor].
    - left. reflexivity.
    - destruct val as [f|e]; [|apply IH].
      destruct evs as [|[] evs]; try (apply Hbad; simpl; auto; discriminate).
      specialize (IH (Ok (VA n, true)) (S n) evs).
      destruct (enforce_run _ _ _) as [[[n' evs'] a]|].
      + refine (Hcons _ (Some a) DAlloc OpAlloc _ evs (fun a => snd (operations true (S n) (k (Ok (VA n, true)))) = Some a) True eq_refl IH).
      + refine (Hcons A None DAlloc OpAlloc _ evs (fun _ => True) _ eq_refl IH).
    - destruct val as [f|e]; [|apply IH].
      destruct evs as [|[] evs]; try (apply Hbad; simpl; auto; discriminate).
      specialize (IH (Ok (VA n, true)) (S n) evs).
      destruct (enforce_run _ _ _) as [[[n' evs'] a]|].
      + refine (Hcons _ (Some a) DInputAlloc OpInput _ evs (fun a => snd (operations true (S n) (k (Ok (VA n, true)))) = Some a) True eq_refl IH).
      + refine (Hcons A None DInputAlloc OpInput _ evs (fun _ => True) _ eq_refl IH).
    - destruct evs as [|[| | |other] evs]; try (apply Hbad; simpl; auto; discriminate).
      destruct (lc_same other lc) eqn:El.
      + specialize (IH n evs). apply lc_same_iff in El.
        destruct (enforce_run _ _ _) as [[[n' evs'] a]|].
        * refine (Hcons _ (Some a) (DEnforceZero other) (OpLC lc) _ evs (fun a => snd (operations true n k) = Some a) True El IH).
        * refine (Hcons A None (DEnforceZero other) (OpLC lc) _ evs (fun _ => True) _ El IH).
      + apply Hbad. intro H. apply (lc_same_iff other lc) in H. congruence.
    - destruct val as [f|e]; [|apply IH].
      destruct evs as [|[] evs]; try (apply Hbad; simpl; auto; discriminate).
      specialize (IH (Ok (VA n, VA (S n), VA (S (S n)), true)) (S (S (S n))) evs).
      destruct (enforce_run _ _ _) as [[[n' evs'] a]|].
      + refine (Hcons _ (Some a) DMultiplication OpMul _ evs (fun a => snd (operations true (S (S (S n))) (k (Ok (VA n, VA (S n), VA (S (S n)), true)))) = Some a) True eq_refl IH).
      + refine (Hcons A None DMultiplication OpMul _ evs (fun _ => True) _ eq_refl IH).
    - apply IH.
    - apply IH.
  Qed.

  Lemma determinism_spec (circuit : Var -> CS F unit) :
    let first := operations false 1 (circuit (VA 0)) in
    let second := operations true 1 (circuit (VA 0)) in
    determinism_check circuit = Some (Ok tt) <->
    snd first = Some (Ok tt) /\ snd second = Some (Ok tt) /\
    exists same rest, fst first = same ++ rest /\ Forall2 same_op same (fst second).
  Proof.
    cbv zeta. unfold determinism_check, record_ONE.
    pose proof (record_ops (circuit (VA 0)) 1 []) as H1.
    destruct (record_run _ _ _) as [[[n evs] r]|]; simpl.
    - destruct H1 as (l & -> & ->). simpl app. cbn [fst snd].
      destruct r as [[]|e].
      + pose proof (enforce_ops (circuit (VA 0)) 1 l) as H2.
        destruct (enforce_run _ _ _) as [[[n2 evs2] r2]|]; simpl.
        * destruct H2 as (-> & l1 & l2 & -> & H2). split.
          -- intro H. destruct r2 as [[]|e2]; [|discriminate H]. split; [reflexivity|]. split; [reflexivity|].
             exists (map op_of l1), (map op_of l2). rewrite map_app. auto.
          -- intros (_ & H & _). injection H as ->. reflexivity.
        * split; [discriminate|]. intros (_ & Hs & same & rest & E & H). exfalso.
          destruct H2 as [H2|H2]; [congruence|]. apply H2.
          apply map_eq_app in E. destruct E as (l1 & l2 & -> & <- & <-). eauto.
      + split; [discriminate|]. intros (H & _). discriminate H.
    - split; [discriminate|]. intros (H & _). congruence.
  Qed.
End Det.

Section Erase.
  Context {F : Field}.
  Lemma exec_erase {A} (q : Prog F A) : forall tr r, Exec q tr r <-> Exec (erase q) tr r.
  Proof.
    induction q as [a| |ann val k IH|ann val k IH|lc k IH|ann val k IH|nm k IH|k IH]; intros tr r; simpl.
    1,2: reflexivity.
    1,2,4: split; intro H; inversion H; subst; econstructor; apply IH; eassumption.
    - split; intro H; inversion H; subst; constructor; apply IH; assumption.
    - rewrite <- IH. split; intro H; [inversion H; subst; assumption|constructor; exact H].
    - rewrite <- IH. split; intro H; [inversion H; subst; assumption|constructor; exact H].
  Qed.
  Lemma record_erase {A} (q : Prog F A) : forall n evs, record_run (erase q) n evs = record_run q n evs.
  Proof. induction q; intros; simpl; auto. Qed.
  Lemma enforce_erase {A} (q : Prog F A) : forall n evs, enforce_run (erase q) n evs = enforce_run q n evs.
  Proof.
    induction q; intros; simpl; auto.
    - destruct value; auto. destruct evs as [|[] evs]; auto.
    - destruct value; auto. destruct evs as [|[] evs]; auto.
    - destruct evs as [|[] evs]; auto. destruct (lc_same _ _); auto.
    - destruct values; auto. destruct evs as [|[] evs]; auto.
  Qed.
  Lemma determinism_erase (circuit : Var -> CS F unit) :
    determinism_check (fun one => erase (circuit one)) = determinism_check circuit.
  Proof.
    unfold determinism_check. rewrite record_erase. destruct (record_run _ _ _) as [[[n evs] [[]|e]]|]; simpl; auto.
    rewrite enforce_erase. reflexivity.
  Qed.
End Erase.
