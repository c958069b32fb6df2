(** Reasoning rules for [sound] and [complete]; evaluation of linear
    combinations. *)
From Coq Require Import String List Bool ZArith Ring Field.
From Verif Require Import Model.FieldTrait Model.Circuits Spec.FieldLaws Spec.CircuitSpec
  Proofs.FieldGen.
Import ListNotations.

Section Rules.
  Context {F : Field}.
  Implicit Types (w : assignment F) (tr : list (event F)).

  Ltac bind_step IH :=
    match goal with H1 : Exec (pbind _ _) _ _ |- _ =>
      apply IH in H1; destruct H1 as [(t1 & t2 & a & -> & H1 & H2)|[H1 ->]];
      [ left;
        match goal with
        | |- context [?ev :: (t1 ++ t2)] => exists (ev :: t1), t2, a
        | _ => exists t1, t2, a
        end;
        split; [reflexivity|split; [econstructor; exact H1|exact H2]]
      | right; split; [econstructor; exact H1|reflexivity] ]
    end.

  Lemma exec_pbind {A B} (p : Prog F A) (f : A -> Prog F B) : forall tr r,
    Exec (pbind p f) tr r ->
    (exists tr1 tr2 a, tr = tr1 ++ tr2 /\ Exec p tr1 (Some a) /\ Exec (f a) tr2 r) \/
    (Exec p tr None /\ r = None).
  Proof.
    induction p as [a| |s v k IH|s v k IH|lc k IH|s v k IH|s k IH|k IH]; simpl; intros tr r H.
    { left. exists [], tr, a. repeat split; auto. constructor. }
    { inversion H; subst. right. split; [constructor|reflexivity]. }
    all: inversion H; subst; bind_step IH.
  Qed.

  Lemma exec_pbind_intro {A B} (p : Prog F A) (f : A -> Prog F B) tr1 a :
    Exec p tr1 (Some a) -> forall tr2 r, Exec (f a) tr2 r -> Exec (pbind p f) (tr1 ++ tr2) r.
  Proof.
    intro H. remember (Some a) as o eqn:E. induction H; intros tr2 r2 H2; simpl;
      try discriminate E; try (econstructor; auto; fail).
    injection E as ->. exact H2.
  Qed.

  (** soundness rules *)
  Lemma sound_ret {A} w (a : A) (Q : A -> Prop) : Q a -> sound w (ret a) Q.
  Proof. intros H tr b E _. inversion E; subst. exact H. Qed.

  Lemma sound_bind {A B} w (m : CS F A) (f : A -> CS F B) (Q1 : A -> Prop) (Q : B -> Prop) :
    sound w m Q1 -> (forall a, Q1 a -> sound w (f a) Q) -> sound w (bind m f) Q.
  Proof.
    intros H1 H2 tr b E C. apply exec_pbind in E.
    destruct E as [(t1 & t2 & a & -> & E1 & E2)|[_ E]]; [|discriminate E].
    apply Forall_app in C. destruct C as [C1 C2].
    destruct a as [a|e].
    - exact (H2 a (H1 _ _ E1 C1) _ _ E2 C2).
    - inversion E2.
  Qed.

  Lemma sound_weaken {A} w (m : CS F A) (Q1 Q : A -> Prop) :
    sound w m Q1 -> (forall a, Q1 a -> Q a) -> sound w m Q.
  Proof. intros H H1 tr a E C. apply H1. exact (H _ _ E C). Qed.

  Lemma sound_and {A} w (m : CS F A) (Q1 Q2 : A -> Prop) :
    sound w m Q1 -> sound w m Q2 -> sound w m (fun a => Q1 a /\ Q2 a).
  Proof. intros H1 H2 tr a E C. split; [exact (H1 _ _ E C)|exact (H2 _ _ E C)]. Qed.

  Lemma sound_fail {A} w e (Q : A -> Prop) : sound w (fail e) Q.
  Proof. intros tr a E. inversion E. Qed.

  Lemma sound_panic {A} w (Q : A -> Prop) : sound w Panic Q.
  Proof. intros tr a E. inversion E. Qed.

  Lemma exec_namespace {A} s (m : CS F A) tr r :
    Exec (namespace s m) tr r -> Exec m tr r.
  Proof.
    unfold namespace. intro E. inversion E as [| | | | | | | | | | | | | | |s0 k tr0 r0 E1|]; subst.
    apply exec_pbind in E1. destruct E1 as [(t1 & t2 & b & -> & E1 & E2)|[E1 ->]]; [|exact E1].
    inversion E2 as [| | | | | | | | | | | | | | | |k1 tr1 r1 E3]; subst.
    inversion E3; subst. rewrite app_nil_r. exact E1.
  Qed.

  Lemma exec_namespace_intro {A} s (m : CS F A) tr r :
    Exec m tr (Some r) -> Exec (namespace s m) tr (Some r).
  Proof.
    intro E. unfold namespace. constructor. rewrite <- (app_nil_r tr).
    eapply exec_pbind_intro; [exact E|]. repeat constructor.
  Qed.

  Lemma sound_namespace {A} w s (m : CS F A) (Q : A -> Prop) :
    sound w m Q -> sound w (namespace s m) Q.
  Proof. intros H tr a E C. apply exec_namespace in E. exact (H _ _ E C). Qed.

  Lemma sound_alloc w s v (Q : Var * option F -> Prop) :
    (forall x o, Q (x, o)) -> sound w (alloc s v) Q.
  Proof.
    intros H tr a E C. unfold alloc in E.
    inversion E; subst; match goal with H3 : Exec (ret _) _ _ |- _ => inversion H3; subst
      | H3 : Exec (fail _) _ _ |- _ => inversion H3 end; apply H.
  Qed.

  Lemma sound_alloc_input w s v (Q : Var * option F -> Prop) :
    (forall x o, Q (x, o)) -> sound w (alloc_input s v) Q.
  Proof.
    intros H tr a E C. unfold alloc_input in E.
    inversion E; subst; match goal with H3 : Exec (ret _) _ _ |- _ => inversion H3; subst
      | H3 : Exec (fail _) _ _ |- _ => inversion H3 end; apply H.
  Qed.

  Lemma sound_enforce w lc (Q : unit -> Prop) :
    (lc_val w lc = fzero -> Q tt) -> sound w (enforce_zero lc) Q.
  Proof.
    intros H tr a E C. inversion E; subst.
    match goal with H3 : Exec (ret _) _ _ |- _ => inversion H3; subst end.
    inversion C; subst. auto.
  Qed.

  Lemma sound_multiply w s v (Q : Var * Var * Var * option (F * F * F) -> Prop) :
    (forall a b c o, fmul (w a) (w b) = w c -> Q (a, b, c, o)) -> sound w (multiply s v) Q.
  Proof.
    intros H tr a E C. unfold multiply in E.
    inversion E; subst; match goal with H3 : Exec (ret _) _ _ |- _ => inversion H3; subst
      | H3 : Exec (fail _) _ _ |- _ => inversion H3 end; inversion C; subst; apply H; assumption.
  Qed.

  Lemma sound_foldM {A B} w (f : B -> A -> CS F B) (I : list A -> B -> Prop) xs :
    forall acc,
    (forall x rest b, I (x :: rest) b -> sound w (f b x) (I rest)) ->
    I xs acc -> sound w (foldM f xs acc) (I []).
  Proof.
    induction xs as [|x xs IH]; intros acc Hf H0; simpl.
    - apply sound_ret. exact H0.
    - eapply sound_bind; [apply (Hf x xs acc H0)|]. intros b Hb. apply IH; assumption.
  Qed.

  Lemma sound_mapM {A B} w (f : A -> CS F B) (R : A -> B -> Prop) xs :
    (forall x, In x xs -> sound w (f x) (R x)) ->
    sound w (mapM f xs) (Forall2 R xs).
  Proof.
    induction xs as [|x xs IH]; intro Hf; simpl.
    - apply sound_ret. constructor.
    - eapply sound_bind; [apply (Hf x (or_introl eq_refl))|]. intros y Hy.
      eapply sound_bind; [apply IH; intros; apply Hf; right; assumption|]. intros ys Hys.
      apply sound_ret. constructor; assumption.
  Qed.

  (** completeness rules *)
  Lemma complete_ret {A} w (a : A) (Q : A -> Prop) : Q a -> complete w (ret a) Q.
  Proof.
    intros H tr r E _. inversion E; subst. exists a. repeat split; auto. constructor.
  Qed.

  Lemma complete_bind {A B} w (m : CS F A) (f : A -> CS F B) (Q1 : A -> Prop) (Q : B -> Prop) :
    complete w m Q1 -> (forall a, Q1 a -> complete w (f a) Q) -> complete w (bind m f) Q.
  Proof.
    intros H1 H2 tr r E W. apply exec_pbind in E.
    destruct E as [(t1 & t2 & a & -> & E1 & E2)|[E1 E]].
    - apply Forall_app in W. destruct W as [W1 W2].
      destruct (H1 _ _ E1 W1) as (a' & Ea & C1 & Q1a). injection Ea as ->.
      destruct (H2 a' Q1a _ _ E2 W2) as (b & -> & C2 & Qb).
      exists b. repeat split; auto. apply Forall_app. split; assumption.
    - destruct (H1 _ _ E1 W) as (a' & Ea & _). discriminate Ea.
  Qed.

  Lemma complete_weaken {A} w (m : CS F A) (Q1 Q : A -> Prop) :
    complete w m Q1 -> (forall a, Q1 a -> Q a) -> complete w m Q.
  Proof.
    intros H H1 tr r E W. destruct (H _ _ E W) as (a & -> & C & Qa).
    exists a. repeat split; auto.
  Qed.

  (** a complete run is also a sound one *)
  Lemma complete_sound {A} w (m : CS F A) (Q1 Q2 : A -> Prop) :
    complete w m Q1 -> sound w m Q2 -> complete w m (fun a => Q1 a /\ Q2 a).
  Proof.
    intros H1 H2 tr r E W. destruct (H1 _ _ E W) as (a & -> & C & Qa).
    exists a. repeat split; auto. exact (H2 _ _ E C).
  Qed.

  Lemma complete_namespace {A} w s (m : CS F A) (Q : A -> Prop) :
    complete w m Q -> complete w (namespace s m) Q.
  Proof. intros H tr r E W. apply exec_namespace in E. exact (H _ _ E W). Qed.

  Lemma complete_alloc w s v f (Q : Var * option F -> Prop) :
    v = Ok f -> (forall x, w x = f -> Q (x, Some f)) -> complete w (alloc s v) Q.
  Proof.
    intros -> H tr r E W. unfold alloc in E.
    inversion E; subst;
      try (match goal with W : witnessed _ _ |- _ => inversion W; subst; contradiction end).
    match goal with H3 : Exec (ret _) _ _ |- _ => inversion H3; subst end.
    inversion W as [|? ? R1 R2]; subst. eexists. split; [reflexivity|]. split; [repeat constructor|].
    apply H. exact R1.
  Qed.

  Lemma complete_alloc_input w s v f (Q : Var * option F -> Prop) :
    v = Ok f -> (forall x, w x = f -> Q (x, Some f)) -> complete w (alloc_input s v) Q.
  Proof.
    intros -> H tr r E W. unfold alloc_input in E.
    inversion E; subst;
      try (match goal with W : witnessed _ _ |- _ => inversion W; subst; contradiction end).
    match goal with H3 : Exec (ret _) _ _ |- _ => inversion H3; subst end.
    inversion W as [|? ? R1 R2]; subst. eexists. split; [reflexivity|]. split; [repeat constructor|].
    apply H. exact R1.
  Qed.

  Lemma complete_enforce w lc (Q : unit -> Prop) :
    lc_val w lc = fzero -> Q tt -> complete w (enforce_zero lc) Q.
  Proof.
    intros H HQ tr r E W. inversion E; subst.
    match goal with H3 : Exec (ret _) _ _ |- _ => inversion H3; subst end.
    exists tt. split; [reflexivity|]. split; [|exact HQ]. repeat constructor. exact H.
  Qed.

  Lemma complete_multiply w s v (x y z : F) (Q : Var * Var * Var * option (F * F * F) -> Prop) :
    v = Ok (x, y, z) -> fmul x y = z ->
    (forall a b c, w a = x -> w b = y -> w c = z -> Q (a, b, c, Some (x, y, z))) ->
    complete w (multiply s v) Q.
  Proof.
    intros -> Hm H tr r E W. unfold multiply in E.
    inversion E; subst;
      try (match goal with W : witnessed _ _ |- _ => inversion W; subst; contradiction end).
    match goal with H3 : Exec (ret _) _ _ |- _ => inversion H3; subst end.
    inversion W as [|? ? R1 R2]; subst. destruct R1 as (Ra & Rb & Rc). subst.
    eexists. split; [reflexivity|]. split.
    - repeat constructor. simpl. rewrite Rc. reflexivity.
    - apply H; auto.
  Qed.

  Lemma complete_foldM {A B} w (f : B -> A -> CS F B) (I : list A -> B -> Prop) xs :
    forall acc,
    (forall x rest b, I (x :: rest) b -> complete w (f b x) (I rest)) ->
    I xs acc -> complete w (foldM f xs acc) (I []).
  Proof.
    induction xs as [|x xs IH]; intros acc Hf H0; simpl.
    - apply complete_ret. exact H0.
    - eapply complete_bind; [apply (Hf x xs acc H0)|]. intros b Hb. apply IH; assumption.
  Qed.

  Lemma complete_mapM {A B} w (f : A -> CS F B) (R : A -> B -> Prop) xs :
    (forall x, In x xs -> complete w (f x) (R x)) ->
    complete w (mapM f xs) (Forall2 R xs).
  Proof.
    induction xs as [|x xs IH]; intro Hf; simpl.
    - apply complete_ret. constructor.
    - eapply complete_bind; [apply (Hf x (or_introl eq_refl))|]. intros y Hy.
      eapply complete_bind; [apply IH; intros; apply Hf; right; assumption|]. intros ys Hys.
      apply complete_ret. constructor; assumption.
  Qed.
End Rules.
