(** dev.rs: is_satisfied. *)
From Coq Require Import String List Bool Arith Lia ZArith Ring Field.
From Verif Require Import Model.FieldTrait Model.Circuits Model.Synthesis Model.Dev Spec.FieldLaws
  Spec.CircuitSpec Spec.ExprSpec Spec.DriverSpec Proofs.FieldGen Proofs.LcP Proofs.ExprP Proofs.DriverP.
Import ListNotations.
Open Scope nat_scope.
Open Scope list_scope.

Lemma vec_set_split {A} (l : list A) i x l' : vec_set l i x = Some l' ->
  exists l1 y l2, l = l1 ++ y :: l2 /\ i = S (length l1) /\ l' = l1 ++ x :: l2.
Proof.
  unfold vec_set. destruct i as [|i]; [discriminate|].
  destruct (Nat.ltb_spec i (length l)) as [Hi|Hi]; [|discriminate]. intro E. injection E as <-.
  destruct (nth_split l x Hi) as (l1 & l2 & El & Hl). exists l1, (nth i l x), l2.
  split; [exact El|]. split; [lia|]. rewrite El. subst i. clear El Hi.
  rewrite firstn_app, firstn_all, Nat.sub_diag. simpl firstn. rewrite app_nil_r. f_equal. f_equal.
  change (match _ with [] => [] | _ :: l0 => skipn (length l1) l0 end)
    with (skipn (S (length l1)) (l1 ++ nth (length l1) l x :: l2)).
  generalize (nth (length l1) l x). intro y. induction l1 as [|z l1 IH]; [reflexivity|]. exact IH.
Qed.
Lemma nth_mid {A} (l1 l2 : list A) x y j d :
  nth j (l1 ++ x :: l2) d = if j =? length l1 then x else nth j (l1 ++ y :: l2) d.
Proof.
  revert j. induction l1 as [|z l1 IH]; intros [|j]; simpl; auto. 
Qed.
Lemma vec_set_nth {A} (l : list A) i x l' d : vec_set l i x = Some l' ->
  length l' = length l /\ 1 <= i <= length l /\
  forall j, 1 <= j -> nth (j - 1) l' d = if j =? i then x else nth (j - 1) l d.
Proof.
  intro H. apply vec_set_split in H. destruct H as (l1 & y & l2 & -> & -> & ->).
  rewrite !app_length. simpl. split; [reflexivity|]. split; [lia|]. intros j Hj.
  rewrite (nth_mid l1 l2 x y). destruct (Nat.eqb_spec (j - 1) (length l1)), (Nat.eqb_spec j (S (length l1)));
    try lia; reflexivity.
Qed.
Lemma vec_set_some {A} (l : list A) i x : 1 <= i <= length l -> exists l', vec_set l i x = Some l'.
Proof.
  destruct i as [|i]; [lia|]. unfold vec_set. intro H. destruct (Nat.ltb_spec i (length l)); [eauto|lia].
Qed.
Lemma vec_set_map {A C} (f : A -> C) (l : list A) i x l' : vec_set l i x = Some l' ->
  f x = f (nth (i - 1) l x) -> map f l' = map f l.
Proof.
  intro H. apply vec_set_split in H. destruct H as (l1 & y & l2 & -> & -> & ->). rewrite !map_app. simpl.
  intro E. rewrite E. f_equal. f_equal. rewrite Nat.sub_0_r, app_nth2, Nat.sub_diag by lia. reflexivity.
Qed.
Lemma nth_snoc {A} (l : list A) j (d : A) : nth j (l ++ [d]) d = nth j l d.
Proof. revert j. induction l as [|x l IH]; intros [|j]; simpl; auto. destruct j; reflexivity. Qed.

Section IsSat.
  Context {F : Field} {p : Z} {v : F -> Z} (FL : FieldLaws F p v).
  Let OL : OpsLaws F p v := fl_ops _ _ _ FL.
  Add Field Ff : (ffield OL).
  Let B := assignment_backend F.
  Implicit Types (s : Assignment F).

  Definition wit s : assignment F := of_vectors (as_a s) (as_b s) (as_c s).
  Definition is_alloc (m : MultType) : bool := match m with MAllocation _ _ => true | _ => false end.

  Definition var_eqb (x y : Var) : bool :=
    match x, y with
    | VA i, VA j | VB i, VB j | VC i, VC j => i =? j
    | _, _ => false
    end.
  Lemma var_eqb_spec x y : reflect (x = y) (var_eqb x y).
  Proof.
    destruct x as [i|i|i], y as [j|j|j]; simpl; try (constructor; congruence);
      destruct (Nat.eqb_spec i j); constructor; congruence.
  Qed.

  (** everything but the wires and annotations *)
  Definition same_rest s s' : Prop :=
    as_n s' = as_n s /\ as_q s' = as_q s /\ as_lc s' = as_lc s /\ as_inputs s' = as_inputs s /\
    length (as_a s') = length (as_a s) /\ length (as_b s') = length (as_b s) /\
    length (as_c s') = length (as_c s) /\
    map is_alloc (as_mults s') = map is_alloc (as_mults s).
  Lemma same_rest_refl s : same_rest s s.
  Proof. unfold same_rest. auto 10. Qed.

  Lemma wit_set_a s a i x n q m l inp ns :
    vec_set (as_a s) i x = Some a -> forall y, 1 <= var_index y ->
    wit (mkAssignment ns n q a (as_b s) (as_c s) m l inp) y = if var_eqb y (VA i) then x else wit s y.
  Proof.
    intros H y Hy. apply (vec_set_nth _ _ _ _ fzero) in H. destruct H as (_ & _ & H).
    destruct y; simpl in *; auto.
  Qed.
  Lemma wit_set_b s b i x n q m l inp ns :
    vec_set (as_b s) i x = Some b -> forall y, 1 <= var_index y ->
    wit (mkAssignment ns n q (as_a s) b (as_c s) m l inp) y = if var_eqb y (VB i) then x else wit s y.
  Proof.
    intros H y Hy. apply (vec_set_nth _ _ _ _ fzero) in H. destruct H as (_ & _ & H).
    destruct y; simpl in *; auto.
  Qed.
  Lemma wit_set_c s c i x n q m l inp ns :
    vec_set (as_c s) i x = Some c -> forall y, 1 <= var_index y ->
    wit (mkAssignment ns n q (as_a s) (as_b s) c m l inp) y = if var_eqb y (VC i) then x else wit s y.
  Proof.
    intros H y Hy. apply (vec_set_nth _ _ _ _ fzero) in H. destruct H as (_ & _ & H).
    destruct y; simpl in *; auto.
  Qed.

  Lemma set_var_spec s ann x val s' called r :
    asg_set_var s ann x val = Some (s', called, r) ->
    called = true /\ same_rest s s' /\
    match val with
    | Err e => s' = s /\ r = Err e
    | Ok f =>
        (forall y, 1 <= var_index y -> wit s' y = if var_eqb y x then f else wit s y) /\
        (r = Ok tt \/
         ann <> None /\ (nth (var_index x - 1) (map is_alloc (as_mults s)) false = false \/
                         exists i, x = VC i))
    end.
  Proof.
    unfold asg_set_var. destruct val as [f|e].
    2:{ intro H. injection H as <- <- <-. split; [reflexivity|]. split; [apply same_rest_refl|auto]. }
    assert (mul_case : forall s0 i m0 a0 b0, vec_get (as_mults s0) i = Some (MAllocation a0 b0) ->
              forall a1 b1, vec_set (as_mults s0) i (MAllocation a1 b1) = Some m0 ->
              map is_alloc m0 = map is_alloc (as_mults s0)).
    { intros s0 i m0 a0 b0 Hg a1 b1 Hs. eapply vec_set_map; [exact Hs|]. simpl.
      destruct i as [|i]; [discriminate Hg|]. simpl in Hg.
      rewrite Nat.sub_succ, Nat.sub_0_r. erewrite (nth_error_nth _ _ _ Hg). reflexivity. }
    assert (con_case : forall l i q, vec_get l i = Some (MConstraint q) ->
              nth (i - 1) (map is_alloc l) false = false).
    { intros l i q Hg. destruct i as [|i]; [discriminate Hg|]. simpl in *. rewrite Nat.sub_0_r.
      change false with (is_alloc (MConstraint "")). rewrite map_nth. erewrite (nth_error_nth _ _ _ Hg). reflexivity. }
    destruct x as [i|i|i]; intro H.
    - oinva H as a. pose proof (vec_set_nth _ _ _ _ fzero E) as (La & _ & _).
      pose proof (wit_set_a s a i f) as W.
      destruct ann as [an|].
      + oinva H as m. destruct m as [m1 m2|q].
        * oinva H as path. oinva H as ml. injection H as <- <- <-. split; [reflexivity|]. split.
          -- unfold same_rest. cbn in *. repeat split; auto. eapply (mul_case s); eassumption.
          -- split; [|auto]. intros y Hy. apply W; assumption.
        * injection H as <- <- <-. split; [reflexivity|]. split.
          -- unfold same_rest. cbn in *. repeat split; auto.
          -- split; [|right]. intros y Hy. apply W; assumption.
             split; [discriminate|]. left. cbn in *. eapply con_case; eassumption.
      + injection H as <- <- <-. split; [reflexivity|]. split.
        * unfold same_rest. cbn in *. repeat split; auto.
        * split; [|auto]. intros y Hy. apply W; assumption.
    - oinva H as a. pose proof (vec_set_nth _ _ _ _ fzero E) as (La & _ & _).
      pose proof (wit_set_b s a i f) as W.
      destruct ann as [an|].
      + oinva H as m. destruct m as [m1 m2|q].
        * oinva H as path. oinva H as ml. injection H as <- <- <-. split; [reflexivity|]. split.
          -- unfold same_rest. cbn in *. repeat split; auto. eapply (mul_case s); eassumption.
          -- split; [|auto]. intros y Hy. apply W; assumption.
        * injection H as <- <- <-. split; [reflexivity|]. split.
          -- unfold same_rest. cbn in *. repeat split; auto.
          -- split; [|right]. intros y Hy. apply W; assumption.
             split; [discriminate|]. left. cbn in *. eapply con_case; eassumption.
      + injection H as <- <- <-. split; [reflexivity|]. split.
        * unfold same_rest. cbn in *. repeat split; auto.
        * split; [|auto]. intros y Hy. apply W; assumption.
    - oinva H as a. pose proof (vec_set_nth _ _ _ _ fzero E) as (La & _ & _).
      pose proof (wit_set_c s a i f) as W.
      destruct ann as [an|]; injection H as <- <- <-; (split; [reflexivity|]); split.
      + unfold same_rest. cbn in *. repeat split; auto.
      + split; [intros y Hy; apply W; assumption|]. right. split; [discriminate|eauto].
      + unfold same_rest. cbn in *. repeat split; auto.
      + split; [intros y Hy; apply W; assumption|auto].
  Qed.

  Lemma new_gate_spec s ann s' : asg_new_gate s ann = Some s' ->
    as_n s' = S (as_n s) /\ as_q s' = as_q s /\ as_lc s' = as_lc s /\ as_inputs s' = as_inputs s /\
    length (as_a s') = S (length (as_a s)) /\ length (as_b s') = S (length (as_b s)) /\
    length (as_c s') = S (length (as_c s)) /\
    map is_alloc (as_mults s') =
      map is_alloc (as_mults s) ++ [match ann with None => true | Some _ => false end] /\
    forall y, wit s' y = wit s y.
  Proof.
    unfold asg_new_gate. destruct ann as [an|].
    - intro H. oinva H as path. injection H as <-. cbn. rewrite !app_length, map_app. cbn.
      repeat split; try lia. intro y. unfold wit. cbn. destruct y; simpl; apply nth_snoc.
    - intro H. injection H as <-. cbn. rewrite !app_length, map_app. cbn.
      repeat split; try lia. intro y. unfold wit. cbn. destruct y; simpl; apply nth_snoc.
  Qed.

  Definition lc_part (e : LC F * F * string) : LC F := fst (fst e).
  Definition k_part (e : LC F * F * string) : F := snd (fst e).

  Lemma insert_all_spec lc : forall s s' pre l k path, as_lc s = pre ++ [(l, k, path)] ->
    insert_all B s lc (length (as_lc s)) = Some s' ->
    as_lc s' = pre ++ [(l ++ lc, k, path)] /\
    as_n s' = as_n s /\ as_q s' = as_q s /\ as_inputs s' = as_inputs s /\
    as_a s' = as_a s /\ as_b s' = as_b s /\ as_c s' = as_c s /\ as_mults s' = as_mults s.
  Proof.
    induction lc as [|[x c] lc IH]; simpl; intros s s' pre l k path E H.
    - injection H as <-. rewrite app_nil_r. auto 10.
    - oinva H as s1. unfold asg_insert in E0. oinva E0 as [[l0 k0] path0]. oinva E0 as ll. injection E0 as <-.
      rewrite E in E1. rewrite app_length in E1. simpl in E1.
      replace (length pre + 1) with (S (length pre)) in E1 by lia. simpl in E1.
      rewrite nth_error_app2, Nat.sub_diag in E1 by lia. simpl in E1. injection E1 as <- <- <-.
      pose proof (vec_set_nth _ _ _ _ ([], fzero, EmptyString) E2) as (Ll & _ & _).
      apply vec_set_split in E2. destruct E2 as (l1 & y & l2 & E2 & E3 & ->).
      rewrite E in E2, E3, Ll. rewrite !app_length in E3. simpl in E3.
      assert (E2' : pre ++ [(l, k, path)] = l1 ++ y :: l2) by exact E2.
      assert (length l2 = 0) by (apply (f_equal (@length _)) in E2'; rewrite !app_length in E2'; simpl in E2'; lia).
      destruct l2; [|discriminate]. apply app_inj_tail in E2'. destruct E2' as [<- <-].
      edestruct (IH (mkAssignment (current_namespace s) (as_n s) (as_q s) (as_a s) (as_b s) (as_c s)
                       (as_mults s) (pre ++ [(lc_add_cv l c x, k, path)]) (as_inputs s))) as (I1 & I2).
      + cbn. reflexivity.
      + cbn. rewrite app_length in *. simpl in *. rewrite E in H. rewrite app_length in H. exact H.
      + rewrite I1. unfold lc_add_cv. rewrite <- app_assoc. cbn in I2. auto.
  Qed.

  (** the invariant relating the backend to the trace *)
  Record AI (st : Synth B) (tr : list (event F)) : Prop := {
    ai_G : G B st tr;
    ai_n : as_n (backend st) = sn st /\ length (as_a (backend st)) = sn st /\
           length (as_b (backend st)) = sn st /\ length (as_c (backend st)) = sn st /\
           length (as_mults (backend st)) = sn st;
    ai_q : as_q (backend st) = sq st /\ length (as_lc (backend st)) = sq st;
    ai_nofail : Forall (fun ev => match ev with EvFail _ => False | _ => True end) tr;
    ai_pend : forall i, current_variable st = Some i ->
      wit (backend st) (VB i) = fzero /\ wit (backend st) (VC i) = fzero /\
      nth (i - 1) (map is_alloc (as_mults (backend st))) false = true;
    ai_rec : witnessed (wit (backend st)) tr;
    ai_gates : forall i, 1 <= i ->
      fmul (wit (backend st) (VA i)) (wit (backend st) (VB i)) = wit (backend st) (VC i) \/
      exists o, In (EvMul (VA i) (VB i) (VC i) o) tr;
    ai_lc : map lc_part (as_lc (backend st)) = trace_lcs tr;
    ai_k : Forall (fun e => k_part e = fzero) (as_lc (backend st));
    ai_inputs : as_inputs (backend st) = input_positions 0 tr
  }.

  Lemma recorded_ext (w w' : assignment F) ev :
    (forall x, In x (event_vars ev) -> w' x = w x) -> recorded w ev -> recorded w' ev.
  Proof.
    intros H. destruct ev as [x o|x o|a b c o|lc|e|e]; simpl in *; auto;
      destruct o as [f|]; auto; try (rewrite H by auto; auto; fail).
    destruct f as [[fa fb] fc]. rewrite !H by auto. auto.
  Qed.
  Lemma witnessed_ext (w w' : assignment F) tr :
    (forall x, In x (trace_vars tr) -> w' x = w x) -> witnessed w tr -> witnessed w' tr.
  Proof.
    intros H. unfold witnessed. rewrite !Forall_forall. intros H1 ev Hin.
    apply (recorded_ext w); [|auto]. intros x Hx. apply H. unfold trace_vars. rewrite in_flat_map. eauto.
  Qed.
  Lemma used_index st x tr : G B st tr -> In x (trace_vars tr) -> 1 <= var_index x <= sn st.
  Proof. intros [_ _ Hu _ _] Hin. rewrite Forall_forall in Hu. apply (Hu x Hin). Qed.

  Lemma nth_map_app (l : list bool) b j : nth j (l ++ [b]) false = if j =? length l then b else nth j l false.
  Proof.
    destruct (Nat.eqb_spec j (length l)) as [->|Hj].
    - rewrite app_nth2, Nat.sub_diag by lia. reflexivity.
    - destruct (Nat.lt_ge_cases j (length l)).
      + apply app_nth1. assumption.
      + rewrite (nth_overflow l) by lia. apply nth_overflow. rewrite app_length. simpl. lia.
  Qed.

  (** assembling the invariant after a call that adds no linear constraint *)
  Local Arguments wit : simpl never.
  Lemma AI_build st tr st' ev :
    AI st tr -> G B st' (tr ++ [ev]) ->
    as_n (backend st') = sn st' -> length (as_a (backend st')) = sn st' ->
    length (as_b (backend st')) = sn st' -> length (as_c (backend st')) = sn st' ->
    length (as_mults (backend st')) = sn st' ->
    sq st' = sq st -> as_q (backend st') = as_q (backend st) ->
    as_lc (backend st') = as_lc (backend st) -> as_inputs (backend st') = as_inputs (backend st) ->
    (match ev with EvFail _ | EvLC _ | EvInput _ _ => False | _ => True end) ->
    recorded (wit (backend st')) ev ->
    (forall x, In x (trace_vars tr) -> wit (backend st') x = wit (backend st) x) ->
    (forall i, current_variable st' = Some i ->
      wit (backend st') (VB i) = fzero /\ wit (backend st') (VC i) = fzero /\
      nth (i - 1) (map is_alloc (as_mults (backend st'))) false = true) ->
    (forall i, 1 <= i ->
      fmul (wit (backend st') (VA i)) (wit (backend st') (VB i)) = wit (backend st') (VC i) \/
      exists o, In (EvMul (VA i) (VB i) (VC i) o) (tr ++ [ev])) ->
    AI st' (tr ++ [ev]).
  Proof.
    intros [HG Hn Hq Hf Hp Hr Hg Hl Hk Hi] HG' N1 N2 N3 N4 N5 Q1 Q2 L1 I1 Hev Hrec Hold Hpend Hgates.
    constructor; auto.
    - rewrite Q2, L1, Q1. exact Hq.
    - apply Forall_app. split; [exact Hf|]. constructor; [|constructor]. destruct ev; tauto.
    - apply Forall_app. split; [eapply witnessed_ext; [exact Hold|exact Hr]|]. constructor; [exact Hrec|constructor].
    - rewrite L1, trace_lcs_app, Hl. destruct ev; simpl; rewrite ?app_nil_r; tauto.
    - rewrite L1. exact Hk.
    - rewrite I1, input_positions_app, Hi. destruct ev; simpl; rewrite ?app_nil_r; tauto.
  Qed.

  Lemma var_eqb_refl x : var_eqb x x = true.
  Proof. destruct (var_eqb_spec x x); congruence. Qed.
  Lemma var_eqb_neq x y : x <> y -> var_eqb x y = false.
  Proof. destruct (var_eqb_spec x y); congruence. Qed.

  Ltac wcases W := repeat match goal with
    | |- context [var_eqb ?x ?y] =>
        destruct (var_eqb_spec x y) as [?E|?E]; [try (discriminate E); try (injection E as ?)|]
    end.

  Lemma wit_big st tr y : AI st tr -> sn st < var_index y -> wit (backend st) y = fzero.
  Proof.
    intros [_ (_ & Na & Nb & Nc & _) _ _ _ _ _ _ _ _] H. unfold wit.
    destruct y; simpl in *; apply nth_overflow; lia.
  Qed.

  Ltac bk E := cbn [backend] in E; first
    [ progress change (b_set_var B) with (@asg_set_var F) in E
    | progress change (b_get_var B) with (@asg_get_var F) in E
    | progress change (b_new_multiplication_gate B) with (@asg_new_gate F) in E ]; cbn [rbind ok_or_missing stored option_map ok] in E.

  Lemma AI_alloc st tr ann val st' r : AI st tr -> syn_alloc B st ann val = Some (st', r) ->
    exists ev, alloc_event val r ev /\ AI st' (tr ++ [ev]) /\
      (forall x b, r = Ok (x, b) -> b = true /\ ev = EvAlloc x (ok val) /\ exists f, val = Ok f) /\
      (forall e, r = Err e -> val = Err e).
  Proof.
    intros HA H. pose proof HA as [HG (N0 & N1 & N2 & N3 & N4) (Q1 & Q2) Hf Hp Hr Hg Hl Hk Hi].
    pose proof H as Hcall. unfold syn_alloc in H.
    destruct (current_variable st) as [i|] eqn:Ec.
    - destruct (g_cur _ _ _ HG i Ec) as [Hi1 Hi2]. destruct (Hp i eq_refl) as (P1 & P2 & P3).
      oinva H as va. cbn [backend] in *. bk E. unfold asg_get_var, var_get in E.
      match type of E with option_map _ ?o = _ => destruct o as [a|] eqn:Ea end; simpl in E; [|discriminate E]. injection E as <-.
      assert (Wa : wit (backend st) (VA i) = a).
      { destruct i as [|i]; [lia|]. simpl in Ea. unfold wit. simpl. rewrite Nat.sub_0_r.
        apply nth_error_nth. exact Ea. }
      oinva H as [[b called] r0]. bk E.
      apply set_var_spec in E. destruct E as (-> & Hs1 & E).
      destruct val as [f|e]; cbn in E.
      + destruct E as [W1 Hr0].
        assert (r0 = Ok tt) as ->.
        { destruct Hr0 as [->|[_ [Hr0|[j Hr0]]]]; [reflexivity| |discriminate Hr0].
          cbn in Hr0. rewrite P3 in Hr0. discriminate Hr0. }
        oinva H as [[b2 called2] r2]. bk E. apply set_var_spec in E.
        destruct E as (-> & Hs2 & W2 & Hr2).
        destruct Hr2 as [->|[Hr2 _]]; [|congruence].
        injection H as <- <-. exists (EvAlloc (VB i) (Some f)).
        assert (Hev : alloc_event (Ok f) (Ok (VB i, true)) (EvAlloc (VB i) (Some f))) by (simpl; eauto 10).
        split; [exact Hev|]. split.
        2:{ split; [|discriminate]. intros x bb Hx. injection Hx as <- <-. simpl. eauto. }
        destruct Hs1 as (S1 & S2 & S3 & S4 & S5 & S6 & S7 & S8).
        destruct Hs2 as (T1 & T2 & T3 & T4 & T5 & T6 & T7 & T8).
        assert (W : forall y, 1 <= var_index y -> wit b2 y =
                   if var_eqb y (VC i) then fmul a f else if var_eqb y (VB i) then f else wit (backend st) y).
        { intros y Hy. rewrite W2, W1 by exact Hy. reflexivity. }
        assert (N5 : length (as_mults b2) = sn st).
        { apply (f_equal (@length _)) in T8, S8. rewrite !map_length in *. congruence. }
        apply (AI_build st tr); cbn [backend sn sq current_variable]; try congruence; try exact HA; auto.
        * eapply G_alloc; [exact HG|exact Hcall|exact Hev].
        * simpl. rewrite W by (simpl; lia). simpl. rewrite Nat.eqb_refl. reflexivity.
        * intros x Hx. pose proof (used_index _ _ _ HG Hx) as Hidx.
          pose proof (g_used _ _ _ HG) as Hu. rewrite Forall_forall in Hu.
          destruct (proj2 (Hu x Hx) i Ec) as [U1 U2].
          rewrite W by lia. rewrite !var_eqb_neq by assumption. reflexivity.
        * intros j Hj. destruct (Nat.eq_dec j i) as [->|Hji].
          -- left. rewrite !W by (simpl; lia). simpl. rewrite !Nat.eqb_refl. rewrite Wa. reflexivity.
          -- destruct (Hg j Hj) as [Hg1|[o Ho]].
             ++ left. rewrite !W by (simpl; lia). simpl. apply Nat.eqb_neq in Hji. rewrite Hji. exact Hg1.
             ++ right. exists o. apply in_app_iff. auto.
      + destruct E as [-> ->]. injection H as <- <-. exists (EvErr e).
        assert (Hev : @alloc_event F (Err e) (Err e) (EvErr e)) by (simpl; auto).
        split; [exact Hev|]. split.
        2:{ split; [discriminate|]. congruence. }
        apply (AI_build st tr); cbn [backend sn sq current_variable]; try congruence; try exact HA; auto.
        * eapply G_alloc; [exact HG|exact Hcall|exact Hev].
        * simpl. exact I.
        * intros j Hj. destruct (Hg j Hj) as [Hg1|[o Ho]]; [left; exact Hg1|].
          right. exists o. apply in_app_iff. auto.
    - oinva H as b. bk E. apply new_gate_spec in E.
      destruct E as (S1 & S2 & S3 & S4 & S5 & S6 & S7 & S8 & S9).
      oinva H as [[b2 called] r0]. bk E. apply set_var_spec in E.
      destruct E as (-> & Hs2 & E).
      destruct Hs2 as (T1 & T2 & T3 & T4 & T5 & T6 & T7 & T8).
      assert (N5 : length (as_mults b2) = S (sn st)).
      { apply (f_equal (@length _)) in T8, S8. rewrite app_length, !map_length in *. simpl in *. lia. }
      assert (Hkind : nth (sn st) (map is_alloc (as_mults b2)) false = true).
      { rewrite T8, S8, nth_map_app, map_length, N4, Nat.eqb_refl. reflexivity. }
      destruct val as [f|e]; cbn in E.
      + destruct E as [W1 Hr0].
        assert (r0 = Ok tt) as ->.
        { destruct Hr0 as [->|[_ [Hr0|[j Hr0]]]]; [reflexivity| |discriminate Hr0].
          exfalso. cbn in Hr0. rewrite Nat.sub_0_r, <- T8, Hkind in Hr0. discriminate Hr0. }
        injection H as <- <-. exists (EvAlloc (VA (S (sn st))) (Some f)).
        assert (Hev : alloc_event (Ok f) (Ok (VA (S (sn st)), true)) (EvAlloc (VA (S (sn st))) (Some f)))
          by (simpl; eauto 10).
        split; [exact Hev|]. split.
        2:{ split; [|discriminate]. intros x bb Hx. injection Hx as <- <-. simpl. eauto. }
        assert (W : forall y, 1 <= var_index y -> wit b2 y =
                   if var_eqb y (VA (S (sn st))) then f else wit (backend st) y).
        { intros y Hy. rewrite W1, S9 by exact Hy. reflexivity. }
        apply (AI_build st tr); cbn [backend sn sq current_variable]; try congruence; try exact HA; auto.
        * eapply G_alloc; [exact HG|exact Hcall|exact Hev].
        * simpl. rewrite W by (simpl; lia). simpl. rewrite Nat.eqb_refl. reflexivity.
        * intros x Hx. pose proof (used_index _ _ _ HG Hx) as Hidx.
          rewrite W by lia. rewrite var_eqb_neq; [reflexivity|]. intros ->. simpl in Hidx. lia.
        * intros j Hj. injection Hj as <-. rewrite !W by (simpl; lia). simpl.
          rewrite !(wit_big st tr) by (try exact HA; simpl; lia). rewrite Nat.sub_0_r. auto.
        * intros j Hj. destruct (Nat.eq_dec j (S (sn st))) as [->|Hji].
          -- left. rewrite !W by (simpl; lia). simpl. rewrite Nat.eqb_refl.
             rewrite !(wit_big st tr) by (try exact HA; simpl; lia). ring.
          -- destruct (Hg j Hj) as [Hg1|[o Ho]].
             ++ left. rewrite !W by (simpl; lia). cbn [var_eqb]. apply Nat.eqb_neq in Hji. rewrite Hji. exact Hg1.
             ++ right. exists o. apply in_app_iff. auto.
      + destruct E as [-> ->]. injection H as <- <-. exists (EvErr e).
        assert (Hev : @alloc_event F (Err e) (Err e) (EvErr e)) by (simpl; auto).
        split; [exact Hev|]. split.
        2:{ split; [discriminate|]. congruence. }
        apply (AI_build st tr); cbn [backend sn sq current_variable]; try congruence; try exact HA; auto.
        * eapply G_alloc; [exact HG|exact Hcall|exact Hev].
        * simpl. exact I.
        * intros j Hj. rewrite !S9. destruct (Hg j Hj) as [Hg1|[o Ho]]; [left; exact Hg1|].
          right. exists o. apply in_app_iff. auto.
  Qed.

  Lemma AI_lc st tr lc st' : AI st tr -> syn_enforce_zero B st lc = Some st' -> AI st' (tr ++ [EvLC lc]).
  Proof.
    intros HA H. pose proof HA as [HG (N0 & N1 & N2 & N3 & N4) (Q1 & Q2) Hf Hp Hr Hg Hl Hk Hi].
    pose proof (G_lc _ _ _ _ _ HG H) as HG'.
    unfold syn_enforce_zero in H. oinva H as [b y]. cbn in E.
    injection E as <- <-. oinva H as b2. injection H as <-.
    match goal with E : insert_all _ ?x _ _ = _ |- _ =>
      pose proof (insert_all_spec lc x b2 (as_lc (backend st)) [] fzero _ eq_refl E) as
        (L1 & L2 & L3 & L4 & L5 & L6 & L7 & L8) end.
    cbn in *.
    assert (W : wit b2 = wit (backend st)) by (unfold wit; rewrite L5, L6, L7; reflexivity).
    constructor; cbn [backend sn sq current_variable]; auto.
    - rewrite L2, L5, L6, L7, L8. auto.
    - rewrite L3, L1, app_length. simpl. lia.
    - apply Forall_app. split; [exact Hf|repeat constructor].
    - intros i Hc. rewrite W, L8. apply Hp. exact Hc.
    - rewrite W. apply Forall_app. split; [exact Hr|repeat constructor].
    - intros i Hi1. rewrite W. destruct (Hg i Hi1) as [Hg1|[o Ho]]; [left; exact Hg1|].
      right. exists o. apply in_app_iff. auto.
    - rewrite L1, map_app, Hl, trace_lcs_app. reflexivity.
    - rewrite L1. apply Forall_app. split; [exact Hk|repeat constructor].
    - rewrite L4, Hi, input_positions_app. simpl. rewrite app_nil_r. reflexivity.
  Qed.

  Lemma AI_input st tr ann val st' r : AI st tr -> syn_alloc_input B st ann val = Some (st', r) ->
    exists ev, input_event val r ev /\ AI st' (tr ++ [ev]) /\
      (forall x b, r = Ok (x, b) -> b = true /\ ev = EvInput x (ok val) /\ exists f, val = Ok f) /\
      (forall e, r = Err e -> val = Err e).
  Proof.
    intros HA H. pose proof H as Hcall. apply syn_input_split in H. destruct H as (s1 & r1 & Ha & H).
    destruct (AI_alloc _ _ _ _ _ _ HA Ha) as (ev & Hev & HA1 & Hok & Herr).
    destruct r1 as [[x b]|e].
    - destruct (Hok x b eq_refl) as (-> & -> & f & ->). cbn [ok] in *.
      destruct H as (s2 & Hl & b2 & r2 & Hkp & -> & ->).
      pose proof (AI_lc _ _ _ _ HA1 Hl) as HA2. cbn in Hkp. injection Hkp as <- <-.
      exists (EvInput x (Some f)).
      assert (Hev' : input_event (Ok f) (Ok (x, true)) (EvInput x (Some f))) by (simpl; eauto 10).
      split; [exact Hev'|]. split.
      2:{ split; [|discriminate]. intros y bb Hy. injection Hy as <- <-. simpl. eauto. }
      pose proof (syn_enforce_step _ _ _ _ Hl) as (Eq & _ & _).
      pose proof (syn_alloc_step _ _ _ _ _ _ Ha) as (Eq1 & _).
      pose proof HA as [_ _ (Q1' & Q2') _ _ _ _ Hl' _ Hi'].
      destruct HA2 as [HG (N0 & N1 & N2 & N3 & N4) (Q1 & Q2) Hf Hp Hr Hg Hlc Hk Hi].
      constructor; cbn [backend sn sq current_variable set_backend as_n as_q as_a as_b as_c as_mults as_lc as_inputs].
      + eapply G_input; [exact (ai_G _ _ HA)|exact Hcall|exact Hev'].
      + auto 10.
      + auto.
      + apply Forall_app. split; [apply (ai_nofail _ _ HA)|repeat constructor].
      + intros i Hc. apply Hp. exact Hc.
      + unfold witnessed in *. rewrite !Forall_app in *. destruct Hr as [[Hr1 Hr2] _].
        split; [exact Hr1|]. inversion Hr2; subst. constructor; [assumption|constructor].
      + intros i Hi1. destruct (Hg i Hi1) as [Hg1|[o Ho]]; [left; exact Hg1|].
        right. exists o. rewrite !in_app_iff in *. simpl in *. destruct Ho as [[Ho|[Ho|[]]]|[Ho|[]]]; [auto|discriminate|discriminate].
      + rewrite Hlc, !trace_lcs_app. simpl. rewrite app_nil_r. reflexivity.
      + exact Hk.
      + rewrite Hi, !input_positions_app. simpl. rewrite !app_nil_r. f_equal. f_equal.
        rewrite Eq, Eq1, <- Hl', map_length. lia.
    - destruct H as [-> ->]. pose proof (Herr e eq_refl) as ->. exists (EvErr e).
      split; [simpl; auto|]. simpl in Hev. destruct Hev as [->|[_ ->]].
      + exfalso. pose proof (ai_nofail _ _ HA1) as Hf. apply Forall_app in Hf. destruct Hf as [_ Hf].
        inversion Hf; subst. assumption.
      + split; [exact HA1|]. split; [discriminate|]. congruence.
  Qed.

  Lemma AI_mul st tr ann val st' r : AI st tr -> syn_multiply B st ann val = Some (st', r) ->
    exists ev, mul_event val r ev /\ AI st' (tr ++ [ev]).
  Proof.
    intros HA H. pose proof HA as [HG (N0 & N1 & N2 & N3 & N4) (Q1 & Q2) Hf Hp Hr Hg Hl Hk Hi].
    pose proof H as Hcall. unfold syn_multiply in H.
    oinva H as b. bk E. apply new_gate_spec in E.
    destruct E as (S1 & S2 & S3 & S4 & S5 & S6 & S7 & S8 & S9).
    oinva H as [[b1 c1] r1]. bk E. apply set_var_spec in E.
    destruct E as (-> & Hs1 & E). destruct Hs1 as (T1 & T2 & T3 & T4 & T5 & T6 & T7 & T8).
    assert (Hpend : forall i, current_variable st = Some i -> i <> S (sn st)).
    { intros i Hc. pose proof (g_cur _ _ _ HG i Hc). lia. }
    assert (Hkind : forall i, current_variable st = Some i ->
       nth (i - 1) (map is_alloc (as_mults b)) false = true).
    { intros i Hc. rewrite S8, nth_map_app, map_length, N4.
      pose proof (g_cur _ _ _ HG i Hc). destruct (Nat.eqb_spec (i - 1) (sn st)); [lia|].
      apply (Hp i Hc). }
    assert (Hlen : length (as_mults b) = S (sn st)).
    { apply (f_equal (@length _)) in S8. rewrite app_length, !map_length in S8. simpl in S8. lia. }
    destruct val as [[[fa fb] fc]|e]; cbn in E.
    - destruct E as [W1 Hr1]. destruct Hr1 as [->|[Hr1 _]]; [|congruence].
      oinva H as [[b2 c2] r2]. bk E. apply set_var_spec in E.
      destruct E as (-> & Hs2 & W2 & Hr2). destruct Hr2 as [->|[Hr2 _]]; [|congruence].
      destruct Hs2 as (U1 & U2 & U3 & U4 & U5 & U6 & U7 & U8).
      oinva H as [[b3 c3] r3]. bk E. apply set_var_spec in E.
      destruct E as (-> & Hs3 & W3 & Hr3). destruct Hr3 as [->|[Hr3 _]]; [|congruence].
      destruct Hs3 as (V1 & V2 & V3 & V4 & V5 & V6 & V7 & V8).
      injection H as <- <-. set (n := S (sn st)) in *.
      exists (EvMul (VA n) (VB n) (VC n) (Some (fa, fb, fc))).
      assert (Hev : mul_event (Ok (fa, fb, fc)) (Ok (VA n, VB n, VC n, true))
                      (EvMul (VA n) (VB n) (VC n) (Some (fa, fb, fc)))) by (simpl; eauto 10).
      split; [exact Hev|].
      assert (W : forall y, 1 <= var_index y -> wit b3 y =
                 if var_eqb y (VC n) then fc else if var_eqb y (VB n) then fb
                 else if var_eqb y (VA n) then fa else wit (backend st) y).
      { intros y Hy. rewrite W3, W2, W1, S9 by exact Hy. reflexivity. }
      assert (Eq : map is_alloc (as_mults b3) = map is_alloc (as_mults b)) by congruence.
      assert (Eql : length (as_mults b3) = n).
      { apply (f_equal (@length _)) in Eq. rewrite !map_length in Eq. congruence. }
      apply (AI_build st tr); cbn [backend sn sq current_variable]; try congruence; try (unfold n; congruence); try exact HA; auto.
      + eapply G_mul; [exact HG|exact Hcall|exact Hev].
      + simpl. rewrite !W by (simpl; lia). simpl. rewrite Nat.eqb_refl. auto.
      + intros x Hx. pose proof (used_index _ _ _ HG Hx) as Hidx.
        rewrite W by lia. rewrite !var_eqb_neq by (intros ->; simpl in Hidx; lia). reflexivity.
      + intros i Hc. rewrite Eq. specialize (Hkind i Hc). specialize (Hpend i Hc).
        pose proof (g_cur _ _ _ HG i Hc). destruct (Hp i Hc) as (P1 & P2 & _).
        rewrite !W by (simpl; lia). cbn [var_eqb]. apply Nat.eqb_neq in Hpend. fold n in Hpend. rewrite Hpend. auto.
      + intros j Hj. destruct (Nat.eq_dec j n) as [->|Hji].
        * right. eexists. apply in_app_iff. right. left. reflexivity.
        * destruct (Hg j Hj) as [Hg1|[o Ho]].
          -- left. rewrite !W by (simpl; lia). cbn [var_eqb]. apply Nat.eqb_neq in Hji. rewrite Hji. exact Hg1.
          -- right. exists o. apply in_app_iff. auto.
    - destruct E as [-> ->]. injection H as <- <-. exists (EvErr e).
      assert (Hev : @mul_event F (Err e) (Err e) (EvErr e)) by (simpl; auto).
      split; [exact Hev|].
      apply (AI_build st tr); cbn [backend sn sq current_variable]; try congruence; try exact HA; auto.
      + eapply G_mul; [exact HG|exact Hcall|exact Hev].
      + simpl. exact I.
      + intros i Hc. rewrite !S9. specialize (Hkind i Hc). destruct (Hp i Hc) as (P1 & P2 & _). auto.
      + intros j Hj. rewrite !S9. destruct (Hg j Hj) as [Hg1|[o Ho]]; [left; exact Hg1|].
        right. exists o. apply in_app_iff. auto.
  Qed.

  Lemma AI_preserved : Preserved B AI.
  Proof.
    constructor.
    - intros st tr ann val st' r HA H. destruct (AI_alloc _ _ _ _ _ _ HA H) as (ev & H1 & H2 & _). eauto.
    - intros st tr ann val st' r HA H. destruct (AI_input _ _ _ _ _ _ HA H) as (ev & H1 & H2 & _). eauto.
    - intros. eapply AI_lc; eassumption.
    - intros. eapply AI_mul; eassumption.
    - intros st tr n b [HG Hn Hq Hf Hp Hr Hg Hl Hk Hi] H. cbn in H. injection H as <-.
      constructor; cbn; auto. apply (G_backend B). exact HG.
    - intros st tr b [HG Hn Hq Hf Hp Hr Hg Hl Hk Hi] H. cbn in H. unfold asg_pop in H.
      oinva H as [ns x]. injection H as <-. constructor; cbn; auto. apply (G_backend B). exact HG.
  Qed.
  Lemma wit0 y : wit (assignment0) y = fzero.
  Proof. unfold wit. destruct y as [[|[|i]]|[|[|i]]|[|[|i]]]; reflexivity. Qed.
  Lemma AI_init : AI (@mkSynth F B assignment0 None 0 0) [].
  Proof.
    constructor.
    - apply G_init.
    - cbn. auto 10.
    - cbn. auto.
    - apply Forall_nil.
    - cbn. intros i Hi. discriminate Hi.
    - apply Forall_nil.
    - intros i Hi. left. cbn [backend]. rewrite !wit0. ring.
    - reflexivity.
    - apply Forall_nil.
    - reflexivity.
  Qed.

  Lemma basic_asg circuit st r : basic_synthesize B assignment0 circuit = Some (st, r) ->
    exists tr, Exec (circuit (VA 1)) tr (Some r) /\ AI st (EvInput (VA 1) (Some fone) :: tr).
  Proof.
    intro H. unfold basic_synthesize in H. oinva H as [s1 r1].
    destruct (AI_input _ _ _ _ _ _ AI_init E) as (ev & Hev & HI & Hok & _).
    destruct r1 as [[x b1]|e]; [|discriminate H].
    destruct (Hok x b1 eq_refl) as (-> & -> & _).
    destruct x as [[|[|i]]| |]; try discriminate H. cbn [ok app] in HI.
    destruct (syn_run_inv B AI AI_preserved _ _ _ _ _ HI H) as (tr & He & HA). eauto.
  Qed.
End IsSat.
