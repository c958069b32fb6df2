(** Values of linear combinations; step tactics for gadget proofs. *)
From Coq Require Import String List Bool ZArith Ring Field.
From Verif Require Import Model.FieldTrait Model.Circuits Spec.FieldLaws Spec.CircuitSpec
  Proofs.FieldGen Proofs.CircuitP.
Import ListNotations.

Section KRules.
  Context {F : Field}.
  Implicit Types (w : assignment F).

  Lemma sound_multiply_k {B} w s v (k : _ -> CS F B) (Q : B -> Prop) :
    (forall a b c o, fmul (w a) (w b) = w c -> sound w (k (a, b, c, o)) Q) ->
    sound w (bind (multiply s v) k) Q.
  Proof.
    intro H. eapply sound_bind.
    - apply (sound_multiply w s v (fun '(a, b, c, o) => fmul (w a) (w b) = w c)). auto.
    - intros [[[a b] c] o] E. apply H, E.
  Qed.
  Lemma sound_enforce_k {B} w lc (k : unit -> CS F B) (Q : B -> Prop) :
    (lc_val w lc = fzero -> sound w (k tt) Q) -> sound w (bind (enforce_zero lc) k) Q.
  Proof.
    intro H. eapply sound_bind; [apply (sound_enforce w lc (fun _ => lc_val w lc = fzero)); auto|].
    intros [] E. auto.
  Qed.
  Lemma sound_alloc_k {B} w s v (k : _ -> CS F B) (Q : B -> Prop) :
    (forall x o, sound w (k (x, o)) Q) -> sound w (bind (alloc s v) k) Q.
  Proof.
    intro H. eapply sound_bind; [apply (sound_alloc w s v (fun _ => True)); auto|].
    intros [x o] _. auto.
  Qed.
  Lemma sound_alloc_input_k {B} w s v (k : _ -> CS F B) (Q : B -> Prop) :
    (forall x o, sound w (k (x, o)) Q) -> sound w (bind (alloc_input s v) k) Q.
  Proof.
    intro H. eapply sound_bind; [apply (sound_alloc_input w s v (fun _ => True)); auto|].
    intros [x o] _. auto.
  Qed.
  Lemma sound_lift_k {A B} w (r : res A) (k : A -> CS F B) (Q : B -> Prop) :
    (forall a, r = Ok a -> sound w (k a) Q) -> sound w (bind (lift r) k) Q.
  Proof.
    intros H. eapply sound_bind with (Q1 := fun a => r = Ok a); [|auto].
    intros tr a E _. inversion E. reflexivity.
  Qed.
  Lemma sound_assert_k {B} w b (k : unit -> CS F B) (Q : B -> Prop) :
    (b = true -> sound w (k tt) Q) -> sound w (bind (assert_ b) k) Q.
  Proof.
    intros H. destruct b; simpl.
    - eapply sound_bind; [apply (sound_ret w tt (fun _ => True)); exact I|]. intros [] _. auto.
    - intros tr a E. inversion E.
  Qed.
  Lemma sound_ret_k {A B} w (a : A) (k : A -> CS F B) (Q : B -> Prop) :
    sound w (k a) Q -> sound w (bind (ret a) k) Q.
  Proof. intros H. exact H. Qed.
  Lemma sound_namespace_k {A B} w s (m : CS F A) (k : A -> CS F B) (Q : B -> Prop) :
    sound w (bind m k) Q -> sound w (bind (namespace s m) k) Q.
  Proof.
    intros H tr b E C. apply exec_pbind in E.
    destruct E as [(t1 & t2 & r & -> & E1 & E2)|[_ E]]; [|discriminate E].
    apply exec_namespace in E1. apply (H (t1 ++ t2) b); [|exact C].
    eapply exec_pbind_intro; eassumption.
  Qed.
  Lemma sound_assoc {A B C} w (m : CS F A) (f : A -> CS F B) (g : B -> CS F C) (Q : C -> Prop) :
    sound w (bind m (fun a => bind (f a) g)) Q -> sound w (bind (bind m f) g) Q.
  Proof.
    intros H tr c E Hc. apply exec_pbind in E.
    destruct E as [(t1 & t2 & r & -> & E1 & E2)|[_ E]]; [|discriminate E].
    apply exec_pbind in E1. destruct E1 as [(t3 & t4 & r' & -> & E1 & E3)|[_ E]]; [|discriminate E].
    apply (H ((t3 ++ t4) ++ t2) c); [|exact Hc]. rewrite <- app_assoc.
    eapply exec_pbind_intro; [exact E1|].
    destruct r' as [r'|e].
    - eapply exec_pbind_intro; eassumption.
    - inversion E3; subst. exact E2.
  Qed.

  Lemma complete_multiply_k {B} w s v (x y z : F) (k : _ -> CS F B) (Q : B -> Prop) :
    v = Ok (x, y, z) -> fmul x y = z ->
    (forall a b c, w a = x -> w b = y -> w c = z ->
                   complete w (k (a, b, c, Some (x, y, z))) Q) ->
    complete w (bind (multiply s v) k) Q.
  Proof.
    intros Hv Hm H. eapply complete_bind.
    - apply (complete_multiply w s v x y z
        (fun '(a, b, c, o) => w a = x /\ w b = y /\ w c = z /\ o = Some (x, y, z))); auto.
    - intros [[[a b] c] o] (E1 & E2 & E3 & ->). auto.
  Qed.
  Lemma complete_enforce_k {B} w lc (k : unit -> CS F B) (Q : B -> Prop) :
    lc_val w lc = fzero -> complete w (k tt) Q -> complete w (bind (enforce_zero lc) k) Q.
  Proof.
    intros H H1. eapply complete_bind; [apply (complete_enforce w lc (fun _ => True)); auto|].
    intros [] _. auto.
  Qed.
  Lemma complete_alloc_k {B} w s v f (k : _ -> CS F B) (Q : B -> Prop) :
    v = Ok f -> (forall x, w x = f -> complete w (k (x, Some f)) Q) ->
    complete w (bind (alloc s v) k) Q.
  Proof.
    intros Hv H. eapply complete_bind.
    - apply (complete_alloc w s v f (fun '(x, o) => w x = f /\ o = Some f)); auto.
    - intros [x o] [E ->]. auto.
  Qed.
  Lemma complete_alloc_input_k {B} w s v f (k : _ -> CS F B) (Q : B -> Prop) :
    v = Ok f -> (forall x, w x = f -> complete w (k (x, Some f)) Q) ->
    complete w (bind (alloc_input s v) k) Q.
  Proof.
    intros Hv H. eapply complete_bind.
    - apply (complete_alloc_input w s v f (fun '(x, o) => w x = f /\ o = Some f)); auto.
    - intros [x o] [E ->]. auto.
  Qed.
  Lemma complete_lift_k {A B} w (r : res A) a (k : A -> CS F B) (Q : B -> Prop) :
    r = Ok a -> complete w (k a) Q -> complete w (bind (lift r) k) Q.
  Proof. intros -> H. exact H. Qed.
  Lemma complete_assert_k {B} w b (k : unit -> CS F B) (Q : B -> Prop) :
    b = true -> complete w (k tt) Q -> complete w (bind (assert_ b) k) Q.
  Proof. intros -> H. exact H. Qed.
  Lemma complete_ret_k {A B} w (a : A) (k : A -> CS F B) (Q : B -> Prop) :
    complete w (k a) Q -> complete w (bind (ret a) k) Q.
  Proof. intros H. exact H. Qed.
  Lemma complete_namespace_k {A B} w s (m : CS F A) (k : A -> CS F B) (Q : B -> Prop) :
    complete w (bind m k) Q -> complete w (bind (namespace s m) k) Q.
  Proof.
    intros H tr b E C. apply exec_pbind in E.
    destruct E as [(t1 & t2 & r & -> & E1 & E2)|[E ->]].
    - apply exec_namespace in E1. apply (H (t1 ++ t2) b); [|exact C].
      eapply exec_pbind_intro; eassumption.
    - apply exec_namespace in E. apply (H tr None); [|exact C].
      unfold bind. clear - E. remember None as o eqn:Eo.
      induction E; simpl; try discriminate Eo; subst; econstructor; auto.
  Qed.
  Lemma pbind_assoc {A B C} (m : Prog F A) (f : A -> Prog F B) (g : B -> Prog F C) tr r :
    Exec (pbind (pbind m f) g) tr r -> Exec (pbind m (fun a => pbind (f a) g)) tr r.
  Proof.
    revert tr r. induction m; simpl; intros tr r E; auto; inversion E; subst; econstructor; eauto.
  Qed.
  Lemma complete_assoc {A B C} w (m : CS F A) (f : A -> CS F B) (g : B -> CS F C) (Q : C -> Prop) :
    complete w (bind m (fun a => bind (f a) g)) Q -> complete w (bind (bind m f) g) Q.
  Proof.
    intros H tr c E Hc. apply (H tr c); [|exact Hc].
    unfold bind in *. apply pbind_assoc in E.
    clear - E.
    revert tr c E. induction m as [[a|e]| | | | | | |]; simpl; intros tr c E; auto;
      inversion E; subst; econstructor; eauto.
  Qed.
End KRules.

(** One step of a soundness / completeness proof. *)
Ltac sstep :=
  cbv beta iota zeta;
  lazymatch goal with
  | |- sound _ (bind (multiply _ _) _) _ => apply sound_multiply_k; intros
  | |- sound _ (bind (enforce_zero _) _) _ => apply sound_enforce_k; intro
  | |- sound _ (bind (alloc _ _) _) _ => apply sound_alloc_k; intros
  | |- sound _ (bind (alloc_input _ _) _) _ => apply sound_alloc_input_k; intros
  | |- sound _ (bind (lift _) _) _ => apply sound_lift_k; intros
  | |- sound _ (bind (assert_ _) _) _ => apply sound_assert_k; intros
  | |- sound _ (bind (ret _) _) _ => apply sound_ret_k
  | |- sound _ (bind (namespace _ _) _) _ => apply sound_namespace_k
  | |- sound _ (bind (bind _ _) _) _ => apply sound_assoc
  | |- sound _ (namespace _ _) _ => apply sound_namespace
  | |- sound _ (ret _) _ => apply sound_ret
  | |- sound _ (fail _) _ => apply sound_fail
  | |- sound _ Panic _ => apply sound_panic
  end; cbv beta iota zeta.
Ltac cstep :=
  cbv beta iota zeta;
  lazymatch goal with
  | |- complete _ (bind (multiply _ _) _) _ => eapply complete_multiply_k; [| |intros]
  | |- complete _ (bind (enforce_zero _) _) _ => eapply complete_enforce_k
  | |- complete _ (bind (alloc _ _) _) _ => eapply complete_alloc_k; [|intros]
  | |- complete _ (bind (alloc_input _ _) _) _ => eapply complete_alloc_input_k; [|intros]
  | |- complete _ (bind (lift _) _) _ => eapply complete_lift_k
  | |- complete _ (bind (assert_ _) _) _ => apply complete_assert_k
  | |- complete _ (bind (ret _) _) _ => apply complete_ret_k
  | |- complete _ (bind (namespace _ _) _) _ => apply complete_namespace_k
  | |- complete _ (bind (bind _ _) _) _ => apply complete_assoc
  | |- complete _ (namespace _ _) _ => apply complete_namespace
  | |- complete _ (ret _) _ => apply complete_ret
  end; cbv beta iota zeta.

Section LcVal.
  Context {F : Field} {p : Z} {v : F -> Z} (OL : OpsLaws F p v).
  Add Field Ff : (ffield OL).
  Implicit Types (w : assignment F) (lc : LC F).

  Lemma coeff_value_val (c : Coeff F) : coeff_value c = coeff_val c.
  Proof. destruct c; reflexivity. Qed.
  Lemma coeff_neg_val (c : Coeff F) : coeff_val (coeff_neg c) = fneg (coeff_val c).
  Proof. destruct c; simpl; ring. Qed.
  Lemma coeff_mul_val (c d : Coeff F) :
    coeff_val (coeff_mul c d) = fmul (coeff_val c) (coeff_val d).
  Proof. destruct c, d; simpl; ring. Qed.
  Lemma coeff_mul_f_val (c : Coeff F) (x : F) :
    coeff_val (coeff_mul_f c x) = fmul (coeff_val c) x.
  Proof. destruct c; simpl; ring. Qed.
  Lemma coeff_double_val (c : Coeff F) :
    coeff_val (coeff_double c) = fadd (coeff_val c) (coeff_val c).
  Proof. destruct c; simpl; ring. Qed.
  Lemma coeff_multiply_val (c : Coeff F) (x : F) : coeff_multiply c x = fmul (coeff_val c) x.
  Proof. destruct c; simpl; ring. Qed.

  Lemma lc_val_app w lc lc' : lc_val w (lc ++ lc') = fadd (lc_val w lc) (lc_val w lc').
  Proof. induction lc as [|[x c] lc IH]; simpl; [|rewrite IH]; ring. Qed.
  Lemma lc_val_add_cv w lc c x :
    lc_val w (lc_add_cv lc c x) = fadd (lc_val w lc) (fmul (coeff_val c) (w x)).
  Proof. unfold lc_add_cv. rewrite lc_val_app. simpl. ring. Qed.
  Lemma lc_val_sub_cv w lc c x :
    lc_val w (lc_sub_cv lc c x) = fsub (lc_val w lc) (fmul (coeff_val c) (w x)).
  Proof. unfold lc_sub_cv. rewrite lc_val_add_cv, coeff_neg_val. ring. Qed.
  Lemma lc_val_add_v w lc x : lc_val w (lc_add_v lc x) = fadd (lc_val w lc) (w x).
  Proof. unfold lc_add_v. rewrite lc_val_add_cv. simpl. ring. Qed.
  Lemma lc_val_sub_v w lc x : lc_val w (lc_sub_v lc x) = fsub (lc_val w lc) (w x).
  Proof. unfold lc_sub_v. rewrite lc_val_sub_cv. simpl. ring. Qed.
  Lemma lc_val_from w x : lc_val w (lc_from x) = w x.
  Proof. unfold lc_from. rewrite lc_val_add_v. simpl. ring. Qed.
  Lemma lc_val_zero w : lc_val w lc_zero = fzero.
  Proof. reflexivity. Qed.
  Lemma lc_val_add_lc w lc lc' :
    lc_val w (lc_add_lc lc lc') = fadd (lc_val w lc) (lc_val w lc').
  Proof.
    unfold lc_add_lc. revert lc. induction lc' as [|[x c] lc' IH]; intro lc; simpl; [ring|].
    rewrite IH, lc_val_add_cv. simpl. ring.
  Qed.
  Lemma lc_val_sub_lc w lc lc' :
    lc_val w (lc_sub_lc lc lc') = fsub (lc_val w lc) (lc_val w lc').
  Proof.
    unfold lc_sub_lc. revert lc. induction lc' as [|[x c] lc' IH]; intro lc; simpl; [ring|].
    rewrite IH, lc_val_sub_cv. simpl. ring.
  Qed.
  Lemma lc_val_add_clc w lc c lc' :
    lc_val w (lc_add_clc lc c lc') = fadd (lc_val w lc) (fmul (coeff_val c) (lc_val w lc')).
  Proof.
    unfold lc_add_clc. revert lc. induction lc' as [|[x d] lc' IH]; intro lc; simpl; [ring|].
    rewrite IH, lc_val_add_cv, coeff_mul_val. simpl. ring.
  Qed.
  Lemma lc_val_sub_clc w lc c lc' :
    lc_val w (lc_sub_clc lc c lc') = fsub (lc_val w lc) (fmul (coeff_val c) (lc_val w lc')).
  Proof.
    unfold lc_sub_clc. revert lc. induction lc' as [|[x d] lc' IH]; intro lc; simpl; [ring|].
    rewrite IH, lc_val_sub_cv, coeff_mul_val. simpl. ring.
  Qed.
End LcVal.

(** Normalise the value of a linear combination. *)
Ltac lcv OL :=
  repeat first [ rewrite (lc_val_sub_v OL) in * | rewrite (lc_val_add_v OL) in *
    | rewrite (lc_val_from OL) in * | rewrite (lc_val_add_cv OL) in *
    | rewrite (lc_val_sub_cv OL) in * | rewrite (lc_val_add_lc OL) in *
    | rewrite (lc_val_sub_lc OL) in * | rewrite (lc_val_add_clc OL) in *
    | rewrite (lc_val_sub_clc OL) in * | rewrite lc_val_zero in * ].

(** Turn [a - b = 0] into [a = b]. *)
Ltac eqz OL := repeat match goal with
  | H : fsub _ _ = fzero |- _ => apply (proj1 (fsub_zero OL _ _)) in H
  end.
(** Eliminate the wires that some equation determines. *)
Ltac wires w := repeat match goal with
  | H : w ?x = _ |- _ => is_var x;
      let y := fresh "y" in let E := fresh in
      remember (w x) as y eqn:E; clear E; subst y
  | H : _ = w ?x |- _ => is_var x;
      let y := fresh "y" in let E := fresh in
      remember (w x) as y eqn:E; clear E; subst y
  end.

(** Use the specification of a called gadget. *)
Ltac scall L :=
  cbv beta iota zeta;
  eapply sound_bind; [ first [apply L | apply sound_namespace; apply L] |]; cbv beta iota.
Ltac ccall L :=
  cbv beta iota zeta;
  eapply complete_bind; [ first [apply L | apply complete_namespace; apply L] |]; cbv beta iota.
