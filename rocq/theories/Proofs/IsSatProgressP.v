(** dev.rs: is_satisfied does not panic on well-behaved circuits. *)
From Coq Require Import String List Bool Arith Lia ZArith Ring Field.
From Verif Require Import Model.FieldTrait Model.Circuits Model.Synthesis Model.Dev Spec.FieldLaws
  Spec.CircuitSpec Spec.ExprSpec Spec.DriverSpec Spec.DevSpec Proofs.FieldGen Proofs.LcP
  Proofs.ExprP Proofs.DriverP Proofs.DevP Proofs.IsSatP.
Import ListNotations.
Open Scope nat_scope.
Open Scope list_scope.

Section Progress.
  Context {F : Field} {p : Z} {v : F -> Z} (FL : FieldLaws F p v).
  Let OL : OpsLaws F p v := fl_ops _ _ _ FL.
  Add Field Ff : (ffield OL).
  Local Notation B := (assignment_backend F).

  Definition ns (st : Synth B) : list string := current_namespace (backend st).
  Definition slashless (ann : option string) : Prop :=
    match ann with Some a => has_slash a = false | None => True end.

  Lemma path_ok l a : has_slash a = false -> exists q, compute_path l a = Some q.
  Proof. unfold compute_path. intros ->. eauto. Qed.
  Lemma vec_get_some {A} (l : list A) i : 1 <= i <= length l -> exists x, vec_get l i = Some x.
  Proof.
    destruct i as [|i]; [lia|]. intro H. unfold vec_get.
    destruct (nth_error l i) eqn:E; [eauto|]. apply nth_error_None in E. lia.
  Qed.

  Lemma set_var_progress (s : Assignment F) ann x val n :
    length (as_a s) = n -> length (as_b s) = n -> length (as_c s) = n -> length (as_mults s) = n ->
    1 <= var_index x <= n -> slashless ann ->
    exists s' called r, asg_set_var s ann x val = Some (s', called, r) /\
      current_namespace s' = current_namespace s.
  Proof.
    intros Ha Hb Hc Hm Hx Hann. unfold asg_set_var. destruct val as [f|e]; [|eauto 10].
    destruct x as [i|i|i]; simpl in Hx.
    - destruct (vec_set_some (as_a s) i f) as [l ->]; [lia|]. cbn [obind].
      destruct ann as [a|]; [|eauto 10]. cbn [as_mults].
      destruct (vec_get_some (as_mults s) i) as [m ->]; [lia|]. cbn [obind].
      destruct m; [|eauto 10]. destruct (path_ok (current_namespace s) a Hann) as [q Hq].
      cbn [current_namespace]. rewrite Hq. cbn [obind].
      destruct (vec_set_some (as_mults s) i (MAllocation q b)) as [l' ->]; [lia|]. cbn [obind]. eauto 10.
    - destruct (vec_set_some (as_b s) i f) as [l ->]; [lia|]. cbn [obind].
      destruct ann as [a|]; [|eauto 10]. cbn [as_mults].
      destruct (vec_get_some (as_mults s) i) as [m ->]; [lia|]. cbn [obind].
      destruct m as [u u'|]; [|eauto 10]. destruct (path_ok (current_namespace s) a Hann) as [q Hq].
      cbn [current_namespace]. rewrite Hq. cbn [obind].
      destruct (vec_set_some (as_mults s) i (MAllocation u q)) as [l' ->]; [lia|]. cbn [obind]. eauto 10.
    - destruct (vec_set_some (as_c s) i f) as [l ->]; [lia|]. cbn [obind].
      destruct ann as [a|]; eauto 10.
  Qed.
  Lemma new_gate_progress (s : Assignment F) ann n : slashless ann ->
    length (as_a s) = n -> length (as_b s) = n -> length (as_c s) = n -> length (as_mults s) = n ->
    exists s', asg_new_gate s ann = Some s' /\ current_namespace s' = current_namespace s /\
      length (as_a s') = S n /\ length (as_b s') = S n /\ length (as_c s') = S n /\ length (as_mults s') = S n.
  Proof.
    intros Ha L1 L2 L3 L4. unfold asg_new_gate. destruct ann as [a|].
    - destruct (path_ok (current_namespace s) a Ha) as [q ->]. cbn [obind]. eexists. split; [reflexivity|].
      cbn. rewrite !app_length. simpl. split; [reflexivity|lia].
    - eexists. split; [reflexivity|]. cbn. rewrite !app_length. simpl. split; [reflexivity|lia].
  Qed.
  (** a set_var keeps the lengths *)
  Lemma set_var_len (s s' : Assignment F) ann x val called r n : asg_set_var s ann x val = Some (s', called, r) ->
    length (as_a s) = n -> length (as_b s) = n -> length (as_c s) = n -> length (as_mults s) = n ->
    length (as_a s') = n /\ length (as_b s') = n /\ length (as_c s') = n /\ length (as_mults s') = n.
  Proof.
    intros H L1 L2 L3 L4. apply (set_var_spec) in H. destruct H as (_ & (S1 & S2 & S3 & S4 & S5 & S6 & S7 & S8) & _).
    repeat split; try congruence. apply (f_equal (@length _)) in S8. rewrite !map_length in S8. congruence.
  Qed.
  Ltac sv E n := match goal with
    | |- context [asg_set_var ?s ?a ?x ?vl] =>
      destruct (set_var_progress s a x vl n) as (?s1 & ?c1 & ?r1 & E & ?Hns); auto; try (simpl; lia)
    end.

  Lemma alloc_progress (st : Synth B) tr ann val : AI st tr -> has_slash ann = false ->
    exists st' r, syn_alloc B st ann val = Some (st', r) /\ ns st' = ns st.
  Proof.
    intros HA Hann. pose proof HA as [HG (N0 & N1 & N2 & N3 & N4) (Q1 & Q2) Hf Hp Hr Hg Hl Hk Hi].
    unfold syn_alloc. destruct (current_variable st) as [i|] eqn:Ec.
    - pose proof (g_cur _ _ _ HG i Ec) as Hi1.
      change (b_get_var B) with (@asg_get_var F). unfold asg_get_var, var_get.
      cbn [backend]. destruct (vec_get_some (as_a (backend st)) i) as [va ->]; [lia|]. cbn [option_map obind].
      change (b_set_var B) with (@asg_set_var F).
      sv E (sn st). rewrite E. cbn [obind].
      destruct (set_var_len _ _ _ _ _ _ _ (sn st) E) as (L1 & L2 & L3 & L4); auto.
      destruct r1 as [[]|e]; [|eexists _, _; split; [reflexivity|exact Hns]].
      sv E2 (sn st). rewrite E2. cbn [obind].
      destruct r1 as [[]|e]; (eexists _, _; split; [reflexivity|unfold ns in *; simpl in *; congruence]).
    - change (b_new_multiplication_gate B) with (@asg_new_gate F).
      destruct (new_gate_progress (backend st) None (sn st)) as (s1 & E1 & Hns & L1 & L2 & L3 & L4); auto; [exact I|].
      rewrite E1. cbn [obind]. change (b_set_var B) with (@asg_set_var F).
      sv E (S (sn st)). rewrite E. cbn [obind].
      destruct r1 as [[]|e]; (eexists _, _; split; [reflexivity|unfold ns in *; simpl in *; congruence]).
  Qed.

  Lemma insert_progress lc : forall (s : Assignment F) y, 1 <= y <= length (as_lc s) ->
    exists s', insert_all B s lc y = Some s' /\ current_namespace s' = current_namespace s.
  Proof.
    induction lc as [|[x c] lc IH]; intros s y Hy; [cbn; eauto|].
    cbn [insert_all]. change (b_insert_coefficient B) with (@asg_insert F). unfold asg_insert.
    destruct (vec_get_some (as_lc s) y Hy) as [[[l k] pth] ->]. cbn [obind].
    destruct (vec_set_some (as_lc s) y (lc_add_cv l c x, k, pth) Hy) as [l' E]. rewrite E. cbn [obind].
    destruct (IH (mkAssignment (current_namespace s) (as_n s) (as_q s) (as_a s) (as_b s) (as_c s)
            (as_mults s) l' (as_inputs s)) y) as (s' & E' & Hns).
    { cbn. apply (vec_set_nth _ _ _ _ (l, k, pth)) in E. destruct E as [-> _]. exact Hy. }
    rewrite E'. exists s'. auto.
  Qed.
  Lemma enforce_progress (st : Synth B) lc : 
    exists st', syn_enforce_zero B st lc = Some st' /\ ns st' = ns st.
  Proof.
    unfold syn_enforce_zero. change (b_new_linear_constraint B) with (@asg_new_lc F). unfold asg_new_lc.
    destruct (path_ok (current_namespace (backend st)) "TODO_LINEAR" eq_refl) as [q ->]. cbn [obind].
    match goal with |- context [insert_all B ?s lc ?y] => destruct (insert_progress lc s y) as (s' & E & Hns) end.
    { cbn [as_lc]. rewrite app_length. simpl. lia. }
    rewrite E. cbn [obind]. eexists. split; [reflexivity|]. exact Hns.
  Qed.
  Lemma input_progress (st : Synth B) tr ann val : AI st tr -> has_slash ann = false ->
    exists st' r, syn_alloc_input B st ann val = Some (st', r) /\ ns st' = ns st.
  Proof.
    intros HA Hann. unfold syn_alloc_input.
    destruct (alloc_progress st tr ann val HA Hann) as (s1 & r & E & Hns). rewrite E. cbn [obind].
    destruct r as [[x b]|e]; [|eauto].
    destruct (enforce_progress s1 (lc_add_v lc_zero x)) as (s2 & E2 & Hns2). rewrite E2. cbn [obind].
    eexists _, _. split; [reflexivity|]. unfold ns in *. cbn. congruence.
  Qed.
  Lemma mul_progress (st : Synth B) tr ann val : AI st tr -> has_slash ann = false ->
    exists st' r, syn_multiply B st ann val = Some (st', r) /\ ns st' = ns st.
  Proof.
    intros HA Hann. pose proof HA as [HG (N0 & N1 & N2 & N3 & N4) (Q1 & Q2) Hf Hp Hr Hg Hl Hk Hi].
    unfold syn_multiply. change (b_new_multiplication_gate B) with (@asg_new_gate F).
    destruct (new_gate_progress (backend st) (Some ann) (sn st)) as (s1 & E1 & Hns & L1 & L2 & L3 & L4); auto.
    rewrite E1. cbn [obind]. change (b_set_var B) with (@asg_set_var F).
    sv E (S (sn st)). rewrite E. cbn [obind].
    destruct (set_var_len _ _ _ _ _ _ _ (S (sn st)) E) as (M1 & M2 & M3 & M4); auto.
    destruct r1 as [[]|e]; [|eexists _, _; split; [reflexivity|unfold ns in *; cbn in *; congruence]].
    sv E2 (S (sn st)). rewrite E2. cbn [obind].
    destruct (set_var_len _ _ _ _ _ _ _ (S (sn st)) E2) as (M5 & M6 & M7 & M8); auto.
    destruct r1 as [[]|e]; [|eexists _, _; split; [reflexivity|unfold ns in *; cbn in *; congruence]].
    sv E3 (S (sn st)). rewrite E3. cbn [obind].
    destruct r1 as [[]|e]; (eexists _, _; split; [reflexivity|unfold ns in *; cbn in *; congruence]).
  Qed.

  Definition lcs_in (vars : list Var) (tr : list (event F)) : Prop :=
    Forall (fun lc => incl (map fst lc) vars) (trace_lcs tr).
  Lemma lcs_in_mono vars vars' tr : incl vars vars' -> lcs_in vars tr -> lcs_in vars' tr.
  Proof. intros H. apply Forall_impl. intros lc Hl x Hx. auto. Qed.

  Lemma last_event st tr ev : @AI F st (tr ++ [ev]) ->
    recorded (wit (backend st)) ev /\ match ev with EvFail _ => False | _ => True end.
  Proof.
    intro HA. pose proof (ai_rec _ _ HA) as Hr. pose proof (ai_nofail _ _ HA) as Hf.
    unfold witnessed in Hr. apply Forall_app in Hr. apply Forall_app in Hf.
    destruct Hr as [_ Hr], Hf as [_ Hf]. inversion Hr; inversion Hf; subst. auto.
  Qed.

  Lemma fresh_vars st tr ev : @AI F st (tr ++ [ev]) ->
    (forall x, In x (trace_vars [ev]) -> ~ In x (trace_vars tr)) /\ NoDup (trace_vars [ev]).
  Proof.
    intros [HG _ _ _ _ _ _ _ _ _]. pose proof (g_nodup _ _ _ HG) as H. rewrite trace_vars_app in H. clear - H.
    induction (trace_vars tr) as [|y l IH]; cbn [app] in H; [split; [intros x _ []|exact H]|].
    inversion H as [|? ? H1 H2]; subst. destruct (IH H2) as [A B]. split; [|exact B].
    intros x Hx [->|Hl]; [|exact (A x Hx Hl)]. apply H1, in_or_app. right. exact Hx.
  Qed.

  Lemma run_progress {A} (q : Prog F A) : forall vars d st tr,
    well_behaved vars d q -> AI st tr -> incl vars (trace_vars tr) -> lcs_in vars tr ->
    d <= length (ns st) ->
    exists st' a tr', syn_run B q st = Some (st', a) /\ AI st' tr' /\ lcs_in (trace_vars tr') tr'.
  Proof.
    induction q as [a| |ann val k IH|ann val k IH|lc k IH|ann val k IH|nm k IH|k IH];
      intros vars d st tr W HA Hv Hl Hd; cbn [syn_run]; cbn [well_behaved] in W.
    - exists st, a, tr. split; [reflexivity|]. split; [exact HA|]. apply lcs_in_mono with vars; assumption.
    - destruct W.
    - destruct W as [Wa W]. destruct (alloc_progress st tr ann val HA Wa) as (s1 & r & E & Hns).
      rewrite E. cbn [obind]. destruct (AI_alloc FL _ _ _ _ _ _ HA E) as (ev & Hev & HA' & Hok & Herr).
      destruct r as [[x b]|e].
      + destruct (Hok x b eq_refl) as (-> & -> & f & ->). cbn [ok] in *.
        assert (Hx : ~ In x vars) by (intro Hx; exact (proj1 (fresh_vars _ _ _ HA') x (or_introl eq_refl) (Hv x Hx))).
        apply (IH (Ok (x, true)) (x :: vars) d s1 (tr ++ [EvAlloc x (Some f)]) (W x Hx) HA').
        * rewrite trace_vars_app. simpl. intros y [->|Hy]; apply in_app_iff; simpl; auto.
        * unfold lcs_in. rewrite trace_lcs_app. simpl. rewrite app_nil_r.
          eapply lcs_in_mono; [|exact Hl]. intros y; simpl; auto.
        * rewrite Hns; exact Hd.
      + rewrite (Herr e eq_refl) in *. simpl in Hev. destruct (last_event _ _ _ HA') as [_ Hnf].
        destruct Hev as [->|[_ ->]]; [destruct Hnf|].
        apply (IH (Err e) vars d s1 (tr ++ [EvErr e]) W HA').
        * rewrite trace_vars_app. simpl. rewrite app_nil_r. exact Hv.
        * unfold lcs_in. rewrite trace_lcs_app. simpl. rewrite app_nil_r. exact Hl.
        * rewrite Hns; exact Hd.
    - destruct W as [Wa W]. destruct (input_progress st tr ann val HA Wa) as (s1 & r & E & Hns).
      rewrite E. cbn [obind]. destruct (AI_input FL _ _ _ _ _ _ HA E) as (ev & Hev & HA' & Hok & Herr).
      destruct r as [[x b]|e].
      + destruct (Hok x b eq_refl) as (-> & -> & f & ->). cbn [ok] in *.
        assert (Hx : ~ In x vars) by (intro Hx; exact (proj1 (fresh_vars _ _ _ HA') x (or_introl eq_refl) (Hv x Hx))).
        apply (IH (Ok (x, true)) (x :: vars) d s1 (tr ++ [EvInput x (Some f)]) (W x Hx) HA').
        * rewrite trace_vars_app. simpl. intros y [->|Hy]; apply in_app_iff; simpl; auto.
        * unfold lcs_in. rewrite trace_lcs_app. simpl. apply Forall_app. split.
          -- eapply lcs_in_mono; [|exact Hl]. intros y; simpl; auto.
          -- constructor; [|constructor]. intros y; simpl; tauto.
        * rewrite Hns; exact Hd.
      + rewrite (Herr e eq_refl) in *. simpl in Hev. destruct (last_event _ _ _ HA') as [_ Hnf].
        destruct Hev as [->|[_ ->]]; [destruct Hnf|].
        apply (IH (Err e) vars d s1 (tr ++ [EvErr e]) W HA').
        * rewrite trace_vars_app. simpl. rewrite app_nil_r. exact Hv.
        * unfold lcs_in. rewrite trace_lcs_app. simpl. rewrite app_nil_r. exact Hl.
        * rewrite Hns; exact Hd.
    - destruct W as [Wl W]. destruct (enforce_progress st lc) as (s1 & E & Hns).
      rewrite E. cbn [obind]. pose proof (AI_lc _ _ _ _ HA E) as HA'.
      apply (IH vars d s1 (tr ++ [EvLC lc]) W HA').
      + rewrite trace_vars_app. simpl. rewrite app_nil_r. exact Hv.
      + unfold lcs_in. rewrite trace_lcs_app. apply Forall_app. split; [exact Hl|]. constructor; [|constructor].
        intros y Hy. apply in_map_iff in Hy. destruct Hy as (q & <- & Hq). rewrite Forall_forall in Wl. auto.
      + rewrite Hns; exact Hd.
    - destruct W as [Wa W]. destruct (mul_progress st tr ann val HA Wa) as (s1 & r & E & Hns).
      rewrite E. cbn [obind]. destruct (AI_mul _ _ _ _ _ _ HA E) as (ev & Hev & HA').
      destruct (last_event _ _ _ HA') as [Hrec Hnf].
      destruct r as [[[[x y] z] b]|e]; simpl in Hev.
      + destruct Hev as [->|(f & -> & -> & ->)]; [destruct Hrec|].
        destruct (fresh_vars _ _ _ HA') as [Hx Hnd]. cbn in Hx, Hnd.
        assert (Hf : forall u, x = u \/ y = u \/ z = u \/ False -> ~ In u vars) by (intros u Hu Hi; exact (Hx u Hu (Hv u Hi))).
        apply (IH (Ok (x, y, z, true)) (x :: y :: z :: vars) d s1 _ (W x y z Hnd (Hf x ltac:(auto)) (Hf y ltac:(auto)) (Hf z ltac:(auto))) HA').
        * rewrite trace_vars_app. simpl. intros u Hu. apply in_app_iff. simpl in *.
          destruct Hu as [->|[->|[->|Hu]]]; auto.
        * unfold lcs_in. rewrite trace_lcs_app. simpl. rewrite app_nil_r.
          eapply lcs_in_mono; [|exact Hl]. intros u; simpl; auto.
        * rewrite Hns; exact Hd.
      + destruct Hev as [->|[-> ->]]; [destruct Hnf|].
        apply (IH (Err e) vars d s1 (tr ++ [EvErr e]) W HA').
        * rewrite trace_vars_app. simpl. rewrite app_nil_r. exact Hv.
        * unfold lcs_in. rewrite trace_lcs_app. simpl. rewrite app_nil_r. exact Hl.
        * rewrite Hns; exact Hd.
    - change (b_push_namespace B (backend st) nm) with (asg_push (backend st) nm). unfold asg_push. cbn [obind].
      apply (IH vars (S d) (set_backend B st (asg_set_ns (backend st) (current_namespace (backend st) ++ [nm]))) tr W).
      + apply (pr_push B AI (AI_preserved FL) st tr nm _ HA eq_refl).
      + exact Hv.
      + exact Hl.
      + unfold ns in *. cbn. rewrite app_length. simpl. lia.
    - destruct W as (d' & -> & W).
      change (b_pop_namespace B (backend st)) with (asg_pop (backend st)).
      destruct (asg_pop (backend st)) as [s1|] eqn:E.
      + cbn [obind]. apply (IH vars d' (set_backend B st s1) tr W).
        * apply (pr_pop B AI (AI_preserved FL) st tr _ HA E).
        * exact Hv.
        * exact Hl.
        * unfold asg_pop, vec_pop in E. unfold ns in *. cbn [set_backend backend].
          rewrite <- rev_length in Hd. destruct (rev (current_namespace (backend st))) as [|x l]; simpl in E; [discriminate E|].
          injection E as <-. cbn. rewrite rev_length. simpl in Hd. lia.
      + exfalso. unfold asg_pop, vec_pop in E. unfold ns in Hd. rewrite <- rev_length in Hd.
        destruct (rev (current_namespace (backend st))) as [|x l]; simpl in *; [lia|discriminate E].
  Qed.

  Lemma check_lcs_progress (a b c : list F) : forall lcs,
    Forall (fun q => Forall (in_vectors a b c) (map fst (lc_part q))) lcs ->
    exists e, check_lcs a b c lcs = Some e.
  Proof.
    induction lcs as [|[[lc k] pth] lcs IH]; intro H; simpl; [eauto|].
    apply Forall_cons_iff in H. destruct H as [H0 H].
    rewrite (proj1 (lc_evaluate_val FL a b c lc) H0). cbn [obind].
    destruct (feqb _ _); simpl; eauto.
  Qed.

  Lemma is_satisfied_progress circuit inputs :
    well_behaved [VA 1] 0 (circuit (VA 1)) -> exists res, @is_satisfied F circuit inputs = Some res.
  Proof.
    intro W. unfold is_satisfied, basic_synthesize.
    destruct (input_progress (@mkSynth F B assignment0 None 0 0) [] "one" (Ok fone) (AI_init FL) eq_refl) as (s1 & r & E & Hns).
    rewrite E. cbn [obind].
    destruct (AI_input FL _ _ _ _ _ _ (AI_init FL) E) as (ev & Hev & HA & Hok & Herr).
    destruct r as [[x b]|e]; [|discriminate (Herr e eq_refl)].
    destruct (Hok x b eq_refl) as (-> & -> & _). cbn [ok app] in HA.
    assert (x = VA 1).
    { unfold syn_alloc_input in E. oinva E as [s2 r2]. unfold syn_alloc in E0. cbn [current_variable] in E0.
      oinva E0 as b1. oinva E0 as [[b2 c2] r3]. destruct r3 as [[]|e]; injection E0 as <- <-; [|discriminate E].
      oinva E as s3. oinva E as [b4 r4]. destruct r4; [|discriminate E]. injection E as _ <- . reflexivity. }
    subst x. 
    destruct (run_progress (circuit (VA 1)) [VA 1] 0 s1 _ W HA) as (st & r & tr & E1 & HA1 & Hin).
    { intros y Hy. exact Hy. }
    { constructor; [|constructor]. intros y Hy. exact Hy. }
    { lia. }
    unfold basic_ONE. rewrite E1. cbn [obind]. destruct r as [[]|e]; [|eauto].
    pose proof HA1 as [HG (N0 & N1 & N2 & N3 & N4) (Q1 & Q2) Hf Hp Hr Hg Hl Hk Hi].
    rewrite Q1, Q2, N0, N1, N2, N3, N4, !Nat.eqb_refl. cbn [andb].
    rewrite Hi, input_positions_length.
    destruct (Nat.eqb_spec (length inputs + 1) (length (input_vars tr))) as [El|El]; cbn [negb]; [|eauto].
    remember (input_positions 0 tr) as pos. destruct pos as [|p0 pos].
    { exfalso. apply (f_equal (@length _)) in Heqpos. rewrite input_positions_length in Heqpos. simpl in Heqpos. lia. }
    cbn [hd_error obind skipn].
    destruct (set_inputs_spec tr [] (as_lc (backend st)) (fone :: inputs)) as (lcs & S1 & S2 & S3);
      [exact Hl|exact Hk|simpl; lia|].
    cbn [length app] in S1. rewrite <- Heqpos in S1. cbn [combine] in S1. rewrite S1. cbn [obind].
    destruct (check_gates_spec FL _ _ _ _ _ N1 N2 N3 N4) as (e & C1 & C2).
    rewrite C1. cbn [obind]. destruct e as [e|]; [eauto|].
    destruct (check_lcs_progress (as_a (backend st)) (as_b (backend st)) (as_c (backend st)) lcs) as (e & ->).
    { apply Forall_forall. intros q Hq. apply Forall_forall. intros y Hy.
      unfold lcs_in in Hin. rewrite Forall_forall in Hin.
      assert (Hq' : In (lc_part q) (trace_lcs tr)) by (rewrite <- S2; apply in_map; exact Hq).
      pose proof (used_index st y tr HG (Hin _ Hq' y Hy)) as Hu. unfold in_vectors.
      destruct y; simpl in Hu; lia. }
    cbn [obind]. destruct e; eauto.
  Qed.
End Progress.
