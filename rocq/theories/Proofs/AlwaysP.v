(** Facts about the output of a gadget that do not depend on its constraints. *)
From Coq Require Import List Bool.
From Verif Require Import Model.FieldTrait Model.Circuits Spec.CircuitSpec Proofs.CircuitP.
Import ListNotations.

Section Always.
  Context {F : Field}.
  Definition always {A} (m : CS F A) (Q : A -> Prop) : Prop :=
    forall tr a, Exec m tr (Some (Ok a)) -> Q a.
  Lemma always_sound {A} w (m : CS F A) (Q : A -> Prop) : always m Q -> sound w m Q.
  Proof. intros H tr a E _. exact (H _ _ E). Qed.
  Lemma always_ret {A} (a : A) (Q : A -> Prop) : Q a -> always (ret a) Q.
  Proof. intros H tr b E. inversion E; subst. exact H. Qed.
  Lemma always_true {A} (m : CS F A) (Q : A -> Prop) : (forall a, Q a) -> always m Q.
  Proof. intros H tr b E. apply H. Qed.
  Lemma always_fail {A} e (Q : A -> Prop) : always (@fail F A e) Q.
  Proof. intros tr b E. inversion E. Qed.
  Lemma always_bind {A B} (m : CS F A) (f : A -> CS F B) (Q1 : A -> Prop) (Q : B -> Prop) :
    always m Q1 -> (forall a, Q1 a -> always (f a) Q) -> always (bind m f) Q.
  Proof.
    intros H1 H2 tr b E. apply exec_pbind in E.
    destruct E as [(t1 & t2 & [a|e] & -> & E1 & E2)|[_ E]]; [|inversion E2|discriminate E].
    exact (H2 _ (H1 _ _ E1) _ _ E2).
  Qed.
  Lemma always_weaken {A} (m : CS F A) (Q1 Q : A -> Prop) :
    always m Q1 -> (forall a, Q1 a -> Q a) -> always m Q.
  Proof. intros H H1 tr a E. apply H1. exact (H _ _ E). Qed.
  Lemma always_namespace {A} s (m : CS F A) (Q : A -> Prop) : always m Q -> always (namespace s m) Q.
  Proof. intros H tr a E. apply exec_namespace in E. exact (H _ _ E). Qed.
  Lemma always_assert_k {B} b (k : unit -> CS F B) (Q : B -> Prop) :
    (b = true -> always (k tt) Q) -> always (bind (assert_ b) k) Q.
  Proof.
    intros H. destruct b; simpl.
    - intros tr a E. exact (H eq_refl tr a E).
    - intros tr a E. inversion E.
  Qed.

  (** [mapM] when every element meets its precondition *)
  Lemma sound_mapM_f {A B X Y} w (P : A -> X -> Prop) (Q : B -> Y -> Prop) (f : X -> Y) (m : A -> CS F B) xs ys :
    (forall a x, P a x -> sound w (m a) (fun o => Q o (f x))) -> Forall2 P xs ys ->
    sound w (mapM m xs) (fun os => Forall2 Q os (map f ys)).
  Proof.
    intros H. induction 1 as [|a x xs ys Ha _ IH]; simpl.
    - apply sound_ret. constructor.
    - eapply sound_bind; [apply (H _ _ Ha)|]. intros b Hb. eapply sound_bind; [exact IH|].
      intros bs Hbs. apply sound_ret. constructor; assumption.
  Qed.
  Lemma complete_mapM_f {A B X Y} w (P : A -> X -> Prop) (Q : B -> Y -> Prop) (f : X -> Y) (m : A -> CS F B) xs ys :
    (forall a x, P a x -> complete w (m a) (fun o => Q o (f x))) -> Forall2 P xs ys ->
    complete w (mapM m xs) (fun os => Forall2 Q os (map f ys)).
  Proof.
    intros H. induction 1 as [|a x xs ys Ha _ IH]; simpl.
    - apply complete_ret. constructor.
    - eapply complete_bind; [apply (H _ _ Ha)|]. intros b Hb. eapply complete_bind; [exact IH|].
      intros bs Hbs. apply complete_ret. constructor; assumption.
  Qed.
  Lemma always_mapM_f {A B X Y} (P : A -> X -> Prop) (Q : B -> Y -> Prop) (f : X -> Y) (m : A -> CS F B) xs ys :
    (forall a x, P a x -> always (m a) (fun o => Q o (f x))) -> Forall2 P xs ys ->
    always (mapM m xs) (fun os => Forall2 Q os (map f ys)).
  Proof.
    intros H. induction 1 as [|a x xs ys Ha _ IH]; simpl.
    - apply always_ret. constructor.
    - eapply always_bind; [apply (H _ _ Ha)|]. intros b Hb. eapply always_bind; [exact IH|].
      intros bs Hbs. apply always_ret. constructor; assumption.
  Qed.
  Lemma always_mapM_length {A B} (m : A -> CS F B) xs : always (mapM m xs) (fun os => length os = length xs).
  Proof.
    induction xs as [|x xs IH]; simpl.
    - apply always_ret. reflexivity.
    - eapply always_bind; [apply (always_true _ (fun _ => True)); auto|]. intros b _.
      eapply always_bind; [exact IH|]. intros bs Hbs. apply always_ret. simpl. congruence.
  Qed.
End Always.

Section Lists.
  Context {A B : Type} (R : A -> B -> Prop).
  Lemma F2_firstn n l l' : Forall2 R l l' -> Forall2 R (firstn n l) (firstn n l').
  Proof. intro H. revert n. induction H; intros [|n]; simpl; constructor; auto. Qed.
  Lemma F2_skipn n l l' : Forall2 R l l' -> Forall2 R (skipn n l) (skipn n l').
  Proof. intro H. revert n. induction H; intros [|n]; simpl; try constructor; auto. Qed.
  Lemma F2_rev l l' : Forall2 R l l' -> Forall2 R (rev l) (rev l').
  Proof. induction 1; simpl; [constructor|]. apply Forall2_app; auto. Qed.
  Lemma F2_impl (R' : A -> B -> Prop) l l' : (forall a b, R a b -> R' a b) -> Forall2 R l l' -> Forall2 R' l l'.
  Proof. intro H. induction 1; constructor; auto. Qed.
  Lemma F2_length l l' : Forall2 R l l' -> length l = length l'.
  Proof. induction 1; simpl; congruence. Qed.
End Lists.
Lemma F2_combine {A B C D} (R : A -> B -> Prop) (S : C -> D -> Prop) l l' m m' :
  Forall2 R l l' -> Forall2 S m m' ->
  Forall2 (fun a b => R (fst a) (fst b) /\ S (snd a) (snd b)) (combine l m) (combine l' m').
Proof.
  intro H. revert m m'. induction H; intros m m' HS; simpl; [constructor|].
  destruct HS; constructor; auto.
Qed.
Lemma F2_map_r {A B C} (R : A -> C -> Prop) (f : B -> C) l l' :
  Forall2 R l (map f l') <-> Forall2 (fun a b => R a (f b)) l l'.
Proof.
  split.
  - revert l. induction l'; intros l H; inversion H; subst; constructor; auto.
  - induction 1; simpl; constructor; auto.
Qed.
