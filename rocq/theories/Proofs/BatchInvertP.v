(** [batch_invert] (src/fields/mod.rs:110-131) inverts every nonzero entry. *)
From Coq Require Import ZArith List Lia Znumtheory Field Bool.
From Verif Require Import Lib.ZMod Model.FieldTrait Spec.FieldLaws Proofs.FieldGen.
Import ListNotations.
Open Scope Z_scope.

Section Batch.
  Context {F : FieldOps} {p : Z} {v : F -> Z} (OL : OpsLaws F p v).
  Add Field FFb : (ffield OL).
  Local Notation inv := (finv (p := p)).

  Definition binv (x : F) : F := if is_zero F x then x else inv x.

  Lemma combine_snoc {A B} (l : list A) (l' : list B) x y : length l = length l' ->
    combine (l ++ [x]) (l' ++ [y]) = combine l l' ++ [(x, y)].
  Proof.
    revert l'. induction l as [|a l IH]; intros [|b l']; cbn; intros H; try discriminate; [reflexivity|].
    rewrite IH by congruence. reflexivity.
  Qed.

  Lemma mul_nz (a b : F) : a <> fzero -> b <> fzero -> fmul a b <> fzero.
  Proof. intros Ha Hb E. apply (fmul_zero OL) in E. tauto. Qed.

  Lemma batch_ok vs : forall acc tmp acc', batch_fwd F vs acc = (tmp, acc') -> acc <> fzero ->
    length tmp = length vs /\ acc' <> fzero /\
    acc' = fmul acc (fold_right (fun x r => if is_zero F x then r else fmul x r) fone vs) /\
    forall rest, batch_bwd F (combine (rev vs) (rev tmp) ++ rest) (inv acc')
                 = rev (map binv vs) ++ batch_bwd F rest (inv acc).
  Proof.
    induction vs as [|x vs IH]; intros acc tmp acc' E Ha; cbn [batch_fwd] in E.
    - injection E as <- <-. repeat split; [exact Ha|]. cbn [fold_right]. ring.
    - destruct (batch_fwd F vs (select (fmul acc x) acc (is_zero F x))) as [tmp1 acc1] eqn:E1.
      injection E as <- <-.
      assert (Hn : select (fmul acc x) acc (is_zero F x) <> fzero).
      { unfold select, is_zero. destruct (feqb_spec OL x fzero); [exact Ha|apply mul_nz; assumption]. }
      destruct (IH _ _ _ E1 Hn) as (L & N & Pr & Hbw). cbn [length]. split; [congruence|]. split; [exact N|].
      split.
      { rewrite Pr. cbn [fold_right]. unfold select. destruct (is_zero F x); [reflexivity|ring]. }
      intros rest. cbn [rev map]. rewrite combine_snoc by (rewrite !rev_length; congruence).
      rewrite <- !app_assoc, Hbw. f_equal. cbn [app batch_bwd].
      unfold binv, select, is_zero in *. destruct (feqb_spec OL x fzero) as [Ex|Ex]; [reflexivity|].
      f_equal; [field|f_equal; field]; auto.
  Qed.

  Context (invert : F -> option F).
  Context (Hinv : forall a, a <> fzero -> exists b, invert a = Some b /\ fmul a b = fone).

  Lemma inv_unique (a b : F) : fmul a b = fone -> b = inv a.
  Proof.
    intros H. assert (Na : a <> fzero).
    { intros E. rewrite E in H. apply (fone_neq_zero OL). rewrite <- H. ring. }
    transitivity (fmul (fmul a b) (inv a)); [field; exact Na|]. rewrite H. ring.
  Qed.

  Theorem batch_invert_ok vs :
    batch_invert F invert vs =
    Some (map binv vs,
          inv (fold_right (fun x r => if is_zero F x then r else fmul x r) fone vs)).
  Proof.
    unfold batch_invert. destruct (batch_fwd F vs fone) as [tmp acc] eqn:E.
    destruct (batch_ok vs fone tmp acc E (fone_neq_zero OL)) as (L & N & Pr & Hbw).
    destruct (Hinv acc N) as (b & Eb & Hb). rewrite Eb. apply inv_unique in Hb. subst b.
    specialize (Hbw []). rewrite app_nil_r in Hbw. rewrite Hbw. cbn [batch_bwd].
    rewrite app_nil_r, rev_involutive. rewrite Pr. repeat f_equal. ring.
  Qed.
End Batch.
