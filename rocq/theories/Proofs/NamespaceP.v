(** Namespaces: is_satisfied without them; constraint_count. *)
From Coq Require Import String List Bool Arith Lia ZArith Ring Field.
From Verif Require Import Model.FieldTrait Model.Circuits Model.Synthesis Model.Dev Spec.FieldLaws
  Spec.CircuitSpec Spec.DriverSpec Spec.DevSpec Proofs.FieldGen Proofs.DriverP Proofs.DevP.
Import ListNotations.
Open Scope nat_scope.
Open Scope list_scope.

Section Erase.
  Context {F : Field}.
  Local Notation B := (assignment_backend F).

  Definition unpath (e : LC F * F * string) : LC F * F := fst e.
  Record blind (a b : Assignment F) : Prop := {
    bl_n : as_n a = as_n b; bl_q : as_q a = as_q b;
    bl_a : as_a a = as_a b; bl_b : as_b a = as_b b; bl_c : as_c a = as_c b;
    bl_m : map is_alloc (as_mults a) = map is_alloc (as_mults b);
    bl_l : map unpath (as_lc a) = map unpath (as_lc b);
    bl_i : as_inputs a = as_inputs b }.

  Lemma path_indep l l' s q : compute_path l s = Some q -> exists q', compute_path l' s = Some q'.
  Proof. unfold compute_path. destruct (has_slash s); [discriminate|eauto]. Qed.
  Lemma vec_get_map {A C} (f : A -> C) (l l' : list A) i x : map f l = map f l' -> vec_get l i = Some x ->
    exists y, vec_get l' i = Some y /\ f y = f x.
  Proof.
    destruct i as [|i]; [discriminate|]. unfold vec_get. intros E H. apply (map_nth_error f) in H.
    rewrite E in H. rewrite nth_error_map in H. destruct (nth_error l' i) as [y|] eqn:E2; [|discriminate H].
    injection H as H. eauto.
  Qed.
  Lemma vec_set_map2 {A C} (f : A -> C) (l l' : list A) i x y l1 : map f l = map f l' -> f x = f y ->
    vec_set l i x = Some l1 -> exists l2, vec_set l' i y = Some l2 /\ map f l1 = map f l2.
  Proof.
    intros E Exy H. assert (El : length l = length l') by (apply (f_equal (@length _)) in E; rewrite !map_length in E; exact E).
    unfold vec_set in *. destruct i as [|i]; [discriminate H|]. rewrite <- El.
    destruct (i <? length l); [|discriminate H].
    assert (El1 : l1 = firstn i l ++ x :: skipn (S i) l) by congruence. subst l1. clear H. eexists. split; [reflexivity|].
    rewrite !map_app. cbn [map].
    rewrite <- !firstn_map, <- !skipn_map, E, Exy. reflexivity.
  Qed.

  Ltac blinds H := destruct H as [Bn Bq Ba Bb Bc Bm Bl Bi].

  Lemma blind_set a b ann x val a' c r : blind a b -> asg_set_var a ann x val = Some (a', c, r) ->
    exists b', asg_set_var b ann x val = Some (b', c, r) /\ blind a' b'.
  Proof.
    intros HB H. pose proof HB as HB0. blinds HB. unfold asg_set_var in *. destruct val as [f|e].
    2:{ injection H as <- <- <-. eauto. }
    destruct x as [i|i|i]; oinva H as l.
    - rewrite <- Ba, E. cbn [obind]. destruct ann as [s|].
      2:{ injection H as <- <- <-. eexists. split; [reflexivity|]. constructor; cbn; congruence. }
      cbn [as_mults] in *. oinva H as m. destruct (vec_get_map is_alloc _ _ _ _ Bm E0) as (m' & -> & Em).
      cbn [obind]. destruct m as [ma mb|], m' as [ma' mb'|]; try discriminate Em.
      + oinva H as q. cbn [current_namespace] in *. destruct (path_indep _ (current_namespace b) _ _ E1) as (q' & ->).
        cbn [obind]. oinva H as l2. destruct (vec_set_map2 is_alloc _ _ _ (MAllocation q mb) (MAllocation q' mb') _ Bm eq_refl E2) as (l3 & -> & El).
        cbn [obind]. injection H as <- <- <-. eexists. split; [reflexivity|]. constructor; cbn; congruence.
      + injection H as <- <- <-. eexists. split; [reflexivity|]. constructor; cbn; congruence.
    - rewrite <- Bb, E. cbn [obind]. destruct ann as [s|].
      2:{ injection H as <- <- <-. eexists. split; [reflexivity|]. constructor; cbn; congruence. }
      cbn [as_mults] in *. oinva H as m. destruct (vec_get_map is_alloc _ _ _ _ Bm E0) as (m' & -> & Em).
      cbn [obind]. destruct m as [ma mb|], m' as [ma' mb'|]; try discriminate Em.
      + oinva H as q. cbn [current_namespace] in *. destruct (path_indep _ (current_namespace b) _ _ E1) as (q' & ->).
        cbn [obind]. oinva H as l2. destruct (vec_set_map2 is_alloc _ _ _ (MAllocation ma q) (MAllocation ma' q') _ Bm eq_refl E2) as (l3 & -> & El).
        cbn [obind]. injection H as <- <- <-. eexists. split; [reflexivity|]. constructor; cbn; congruence.
      + injection H as <- <- <-. eexists. split; [reflexivity|]. constructor; cbn; congruence.
    - rewrite <- Bc, E. cbn [obind].
      destruct ann; injection H as <- <- <-; (eexists; split; [reflexivity|]; constructor; cbn; congruence).
  Qed.
  Lemma blind_gate a b ann a' : blind a b -> asg_new_gate a ann = Some a' ->
    exists b', asg_new_gate b ann = Some b' /\ blind a' b'.
  Proof.
    intros HB H. blinds HB. unfold asg_new_gate in *. destruct ann as [s|].
    - oinva H as q. injection H as <-. destruct (path_indep _ (current_namespace b) _ _ E) as (q' & ->).
      cbn [obind]. eexists. split; [reflexivity|]. constructor; cbn; rewrite ?map_app; simpl; congruence.
    - injection H as <-. eexists. split; [reflexivity|]. constructor; cbn; rewrite ?map_app; simpl; congruence.
  Qed.
  Lemma blind_lc a b s a' y : blind a b -> asg_new_lc a s = Some (a', y) ->
    exists b', asg_new_lc b s = Some (b', y) /\ blind a' b'.
  Proof.
    intros HB H. blinds HB. unfold asg_new_lc in *. oinva H as q. injection H as <- <-.
    destruct (path_indep _ (current_namespace b) _ _ E) as (q' & ->). cbn [obind].
    assert (El : length (as_lc a) = length (as_lc b)) by (apply (f_equal (@length _)) in Bl; rewrite !map_length in Bl; exact Bl).
    eexists. rewrite !app_length, El. split; [reflexivity|]. constructor; cbn; rewrite ?map_app; simpl; congruence.
  Qed.
  Lemma blind_insert a b x c y a' : blind a b -> asg_insert a x c y = Some a' ->
    exists b', asg_insert b x c y = Some b' /\ blind a' b'.
  Proof.
    intros HB H. blinds HB. unfold asg_insert in *. oinva H as [[l k] pth]. oinva H as l2. injection H as <-.
    destruct (vec_get_map unpath _ _ _ _ Bl E) as ([[l' k'] pth'] & -> & Ee). cbn [obind].
    unfold unpath in Ee. cbn [fst] in Ee. injection Ee as -> ->.
    destruct (vec_set_map2 unpath _ _ _ (lc_add_cv l c x, k, pth) (lc_add_cv l c x, k, pth') _ Bl eq_refl E0) as (l3 & -> & El).
    cbn [obind]. eexists. split; [reflexivity|]. constructor; cbn; congruence.
  Qed.

  Definition sblind (s t : Synth B) : Prop :=
    blind (backend s) (backend t) /\ current_variable s = current_variable t /\ sq s = sq t /\ sn s = sn t.
  Lemma sblind_mk a b cv q n : blind a b -> sblind (@mkSynth F B a cv q n) (@mkSynth F B b cv q n).
  Proof. intro. repeat split; assumption || apply H. Qed.

  Ltac bset E HB b' HB' := let E' := fresh "E'" in destruct (blind_set _ _ _ _ _ _ _ _ HB E) as (b' & E' & HB'); rewrite E'; clear E'; cbn [obind].

  Lemma alloc_blind s t ann val s' r : sblind s t -> syn_alloc B s ann val = Some (s', r) ->
    exists t', syn_alloc B t ann val = Some (t', r) /\ sblind s' t'.
  Proof.
    destruct s as [a cv q n], t as [b cv' q' n']. intros (HB & Ec & Eq & En) H. cbn in HB, Ec, Eq, En. subst cv' q' n'.
    unfold syn_alloc in *. cbn [current_variable backend sq sn] in *.
    destruct cv as [i|].
    - change (b_get_var B) with (@asg_get_var F) in *. oinva H as va.
      assert (Eg : asg_get_var b (VA i) = Some va).
      { unfold asg_get_var in *. blinds HB. rewrite <- Ba, <- Bb, <- Bc. exact E. }
      rewrite Eg. cbn [obind]. change (b_set_var B) with (@asg_set_var F) in *.
      oinva H as [[a1 c1] r1]. bset E0 HB b1 HB1. destruct r1 as [[]|e].
      + oinva H as [[a2 c2] r2]. bset E1 HB1 b2 HB2.
        destruct r2; injection H as <- <-; (eexists; split; [reflexivity|apply sblind_mk; assumption]).
      + injection H as <- <-. eexists. split; [reflexivity|apply sblind_mk; assumption].
    - change (b_new_multiplication_gate B) with (@asg_new_gate F) in *.
      oinva H as a1. destruct (blind_gate _ _ _ _ HB E) as (b1 & -> & HB1). cbn [obind].
      change (b_set_var B) with (@asg_set_var F) in *.
      oinva H as [[a2 c2] r2]. bset E0 HB1 b2 HB2.
      destruct r2; injection H as <- <-; (eexists; split; [reflexivity|apply sblind_mk; assumption]).
  Qed.
  Lemma insert_blind lc : forall a b y a', blind a b -> insert_all B a lc y = Some a' ->
    exists b', insert_all B b lc y = Some b' /\ blind a' b'.
  Proof.
    induction lc as [|[x c] lc IH]; intros a b y a' HB H; cbn [insert_all] in *.
    - injection H as <-. eauto.
    - change (b_insert_coefficient B) with (@asg_insert F) in *. oinva H as a1.
      destruct (blind_insert _ _ _ _ _ _ HB E) as (b1 & -> & HB1). cbn [obind]. exact (IH _ _ _ _ HB1 H).
  Qed.
  Lemma enforce_blind s t lc s' : sblind s t -> syn_enforce_zero B s lc = Some s' ->
    exists t', syn_enforce_zero B t lc = Some t' /\ sblind s' t'.
  Proof.
    destruct s as [a cv q n], t as [b cv' q' n']. intros (HB & Ec & Eq & En) H. cbn in HB, Ec, Eq, En. subst cv' q' n'.
    unfold syn_enforce_zero in *. cbn [current_variable backend sq sn] in *.
    change (b_new_linear_constraint B) with (@asg_new_lc F) in *. oinva H as [a1 y]. oinva H as a2.
    destruct (blind_lc _ _ _ _ _ HB E) as (b1 & -> & HB1). cbn [obind].
    destruct (insert_blind _ _ _ _ _ HB1 E0) as (b2 & -> & HB2). cbn [obind].
    injection H as <-. eexists. split; [reflexivity|apply sblind_mk; assumption].
  Qed.
  Lemma input_blind s t ann val s' r : sblind s t -> syn_alloc_input B s ann val = Some (s', r) ->
    exists t', syn_alloc_input B t ann val = Some (t', r) /\ sblind s' t'.
  Proof.
    intros HB H. unfold syn_alloc_input in *. oinva H as [s1 r1].
    destruct (alloc_blind _ _ _ _ _ _ HB E) as (t1 & -> & HB1). cbn [obind].
    destruct r1 as [[x b]|e]; [|injection H as <- <-; eauto].
    oinva H as s2. destruct (enforce_blind _ _ _ _ HB1 E0) as (t2 & -> & HB2). cbn [obind] in *.
    cbn in H. injection H as <- <-. destruct HB2 as (HB2 & E1 & E2 & E3).
    eexists. cbn. split; [reflexivity|]. rewrite E1, E2, E3. apply sblind_mk. blinds HB2. constructor; cbn; congruence.
  Qed.
  Lemma mul_blind s t ann val s' r : sblind s t -> syn_multiply B s ann val = Some (s', r) ->
    exists t', syn_multiply B t ann val = Some (t', r) /\ sblind s' t'.
  Proof.
    destruct s as [a cv q n], t as [b cv' q' n']. intros (HB & Ec & Eq & En) H. cbn in HB, Ec, Eq, En. subst cv' q' n'.
    unfold syn_multiply in *. cbn [current_variable backend sq sn] in *.
    change (b_new_multiplication_gate B) with (@asg_new_gate F) in *. oinva H as a1.
    destruct (blind_gate _ _ _ _ HB E) as (b1 & -> & HB1). cbn [obind].
    change (b_set_var B) with (@asg_set_var F) in *.
    oinva H as [[a2 c2] r2]. bset E0 HB1 b2 HB2.
    destruct r2 as [[]|e]; [|injection H as <- <-; eexists; split; [reflexivity|apply sblind_mk; assumption]].
    oinva H as [[a3 c3] r3]. bset E1 HB2 b3 HB3.
    destruct r3 as [[]|e]; [|injection H as <- <-; eexists; split; [reflexivity|apply sblind_mk; assumption]].
    oinva H as [[a4 c4] r4]. bset E2 HB3 b4 HB4.
    destruct r4 as [[]|e]; injection H as <- <-; (eexists; split; [reflexivity|apply sblind_mk; assumption]).
  Qed.
  Lemma run_blind {A} (q : Prog F A) : forall s t s' a, sblind s t -> syn_run B q s = Some (s', a) ->
    exists t', syn_run B (erase q) t = Some (t', a) /\ sblind s' t'.
  Proof.
    induction q as [a| |ann val k IH|ann val k IH|lc k IH|ann val k IH|nm k IH|k IH]; intros s t s' a' HB H; cbn [syn_run erase] in *.
    - injection H as <- <-. eauto.
    - discriminate H.
    - oinva H as [s1 r]. destruct (alloc_blind _ _ _ _ _ _ HB E) as (t1 & -> & HB1). exact (IH _ _ _ _ _ HB1 H).
    - oinva H as [s1 r]. destruct (input_blind _ _ _ _ _ _ HB E) as (t1 & -> & HB1). exact (IH _ _ _ _ _ HB1 H).
    - oinva H as s1. destruct (enforce_blind _ _ _ _ HB E) as (t1 & -> & HB1). exact (IH _ _ _ _ HB1 H).
    - oinva H as [s1 r]. destruct (mul_blind _ _ _ _ _ _ HB E) as (t1 & -> & HB1). exact (IH _ _ _ _ _ HB1 H).
    - oinva H as b. refine (IH _ _ _ _ _ H). cbn in E. injection E as <-.
      destruct HB as (HB & E1 & E2 & E3). split; [|auto]. blinds HB. constructor; assumption.
    - oinva H as b. refine (IH _ _ _ _ _ H). cbn in E. unfold asg_pop in E. oinva E as [l x]. injection E as <-.
      destruct HB as (HB & E1 & E2 & E3). split; [|auto]. blinds HB. constructor; assumption.
  Qed.

  Lemma set_inputs_blind : forall l (x y : list (LC F * F * string)) x', map unpath x = map unpath y ->
    set_inputs x l = Some x' -> exists y', set_inputs y l = Some y' /\ map unpath x' = map unpath y'.
  Proof.
    induction l as [|[i idx] l IH]; intros x y x' E H; cbn [set_inputs] in *.
    - injection H as <-. eauto.
    - oinva H as [[l1 k1] p1]. oinva H as x1.
      destruct (vec_get_map unpath _ _ _ _ E E0) as ([[l' k'] pth'] & -> & Ee). cbn [obind].
      unfold unpath in Ee. cbn [fst] in Ee. injection Ee as -> ->.
      destruct (vec_set_map2 unpath _ _ _ (l1, i, p1) (l1, i, pth') _ E eq_refl E1) as (l3 & -> & El). cbn [obind].
      exact (IH _ _ _ El H).
  Qed.
  Lemma check_gates_blind : forall (a b c : list F) m m' e, map is_alloc m = map is_alloc m' ->
    check_gates a b c m = Some e -> exists e', check_gates a b c m' = Some e' /\
      match e, e' with None, None => True | Some x, Some y => same_verdict (SatErr x) (SatErr y) | _, _ => False end.
  Proof.
    induction a as [|x a IH]; intros [|y b] [|z c] [|k m] [|k' m'] e Em H; simpl in *; try discriminate Em;
      try (injection H as <-; eexists; split; [reflexivity|exact I]).
    injection Em as Ek Em. destruct (negb _).
    - injection H as <-. eexists. split; [reflexivity|]. simpl. auto.
    - exact (IH _ _ _ _ _ Em H).
  Qed.
  Lemma check_lcs_blind (a b c : list F) : forall l l' e, map unpath l = map unpath l' ->
    check_lcs a b c l = Some e -> exists e', check_lcs a b c l' = Some e' /\
      match e, e' with None, None => True | Some x, Some y => same_verdict (SatErr x) (SatErr y) | _, _ => False end.
  Proof.
    induction l as [|[[lc k] q] l IH]; intros [|[[lc' k'] q'] l'] e El H; simpl in *; try discriminate El.
    - injection H as <-. eexists. split; [reflexivity|exact I].
    - injection El as <- <- El. oinva H as x. rewrite E. cbn [obind]. destruct (negb _).
      + injection H as <-. eexists. split; [reflexivity|]. simpl. auto.
      + exact (IH _ _ El H).
  Qed.

  Lemma same_verdict_refl (x : sat_result F) : same_verdict x x.
  Proof. destruct x as [|[]]; simpl; auto. Qed.

  Lemma is_satisfied_erase circuit inputs v : @is_satisfied F circuit inputs = Some v ->
    exists v', is_satisfied (fun one => erase (circuit one)) inputs = Some v' /\ same_verdict v v'.
  Proof.
    intro H. unfold is_satisfied in *. oinva H as [s r].
    assert (R : exists t, basic_synthesize B assignment0 (fun one => erase (circuit one)) = Some (t, r) /\ sblind s t).
    { unfold basic_synthesize in *. oinva E as [s1 r1]. rewrite E0. cbn [obind].
      destruct r1 as [[[[|[|]]| |] b]|e]; try discriminate E.
      refine (run_blind _ _ _ _ _ _ E). repeat split. }
    destruct R as (t & -> & HB & _). cbn [obind]. blinds HB.
    destruct r as [[]|e]; [|injection H as <-; eexists; split; [reflexivity|apply same_verdict_refl]].
    assert (E1 : length (as_mults (backend s)) = length (as_mults (backend t))).
    { apply (f_equal (@length _)) in Bm. rewrite !map_length in Bm. exact Bm. }
    assert (E2 : length (as_lc (backend s)) = length (as_lc (backend t))).
    { apply (f_equal (@length _)) in Bl. rewrite !map_length in Bl. exact Bl. }
    rewrite <- Bn, <- Bq, <- Ba, <- Bb, <- Bc, <- Bi, <- E1, <- E2.
    destruct (_ && _); [|discriminate H].
    destruct (negb _); [injection H as <-; eexists; split; [reflexivity|apply same_verdict_refl]|].
    oinva H as idx. rewrite E0. cbn [obind].
    oinva H as lcs. destruct (set_inputs_blind _ _ _ _ Bl E3) as (lcs' & E3' & El).
    cbn [skipn] in *. rewrite E3'. cbn [obind].
    oinva H as e. destruct (check_gates_blind _ _ _ _ _ _ Bm E4) as (e' & -> & Ee). cbn [obind].
    destruct e as [e|], e' as [e'|]; try destruct Ee.
    - injection H as <-. eexists. split; [reflexivity|exact Ee].
    - oinva H as f. destruct (check_lcs_blind _ _ _ _ _ _ El E5) as (f' & -> & Ef). cbn [obind].
      destruct f as [f|], f' as [f'|]; try destruct Ef; injection H as <-; (eexists; split; [reflexivity|]); auto.
      reflexivity.
  Qed.
End Erase.
