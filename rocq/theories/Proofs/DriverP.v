(** The synthesis driver over an arbitrary backend. *)
From Coq Require Import String List Bool Arith Lia.
From Verif Require Import Model.FieldTrait Model.Circuits Model.Synthesis Spec.CircuitSpec
  Spec.DriverSpec.
Import ListNotations.
Open Scope nat_scope.
Open Scope list_scope.

Lemma obind_some {A B} (o : option A) (f : A -> option B) r :
  obind o f = Some r -> exists a, o = Some a /\ f a = Some r.
Proof. destruct o; simpl; intro H; [eauto|discriminate H]. Qed.

Ltac oinv H :=
  let a := fresh "a" in let E := fresh "E" in
  apply obind_some in H; destruct H as (a & E & H).

Tactic Notation "oinva" hyp(H) "as" simple_intropattern(pat) :=
  let E := fresh "E" in
  apply obind_some in H; destruct H as (pat & E & H).

Section Driver.
  Context {F : Field} (B : Backend F).

  (** how the outcome of a call shows in the trace *)
  Definition alloc_event (v : res F) (r : res (Var * bool)) (ev : event F) : Prop :=
    match r with
    | Ok (x, b) => ev = EvAlloc x None \/ exists f, v = Ok f /\ b = true /\ ev = EvAlloc x (Some f)
    | Err e => ev = EvFail e \/ v = Err e /\ ev = EvErr e
    end.
  Definition input_event (v : res F) (r : res (Var * bool)) (ev : event F) : Prop :=
    match r with
    | Ok (x, b) => ev = EvInput x None \/ exists f, v = Ok f /\ b = true /\ ev = EvInput x (Some f)
    | Err e => ev = EvFail e \/ v = Err e /\ ev = EvErr e
    end.
  Definition mul_event (v : res (F * F * F)) (r : res (Var * Var * Var * bool)) (ev : event F) : Prop :=
    match r with
    | Ok (x, y, z, b) =>
        ev = EvMul x y z None \/ exists f, v = Ok f /\ b = true /\ ev = EvMul x y z (Some f)
    | Err e => ev = EvFail e \/ v = Err e /\ ev = EvErr e
    end.

  Definition set_backend (s : Synth B) (b : BState B) : Synth B :=
    mkSynth b (current_variable s) (sq s) (sn s).

  Record Preserved (I : Synth B -> list (event F) -> Prop) : Prop := {
    pr_alloc : forall s tr ann v s' r, I s tr -> syn_alloc B s ann v = Some (s', r) ->
      exists ev, alloc_event v r ev /\ I s' (tr ++ [ev]);
    pr_input : forall s tr ann v s' r, I s tr -> syn_alloc_input B s ann v = Some (s', r) ->
      exists ev, input_event v r ev /\ I s' (tr ++ [ev]);
    pr_lc : forall s tr lc s', I s tr -> syn_enforce_zero B s lc = Some s' -> I s' (tr ++ [EvLC lc]);
    pr_mul : forall s tr ann v s' r, I s tr -> syn_multiply B s ann v = Some (s', r) ->
      exists ev, mul_event v r ev /\ I s' (tr ++ [ev]);
    pr_push : forall s tr n b, I s tr -> b_push_namespace B (backend s) n = Some b ->
      I (set_backend s b) tr;
    pr_pop : forall s tr b, I s tr -> b_pop_namespace B (backend s) = Some b ->
      I (set_backend s b) tr
  }.

  Lemma syn_run_inv I : Preserved I -> forall {A} (p : Prog F A) s tr s' a,
    I s tr -> syn_run B p s = Some (s', a) ->
    exists t, Exec p t (Some a) /\ I s' (tr ++ t).
  Proof.
    intros P A p.
    induction p as [a0| |ann v k IH|ann v k IH|lc k IH|ann v k IH|n k IH|k IH];
      simpl; intros s tr s' a HI H.
    - injection H as <- <-. exists []. rewrite app_nil_r. split; [constructor|exact HI].
    - discriminate H.
    - oinv H. destruct a0 as [s1 r]. destruct (pr_alloc I P _ _ _ _ _ _ HI E) as (ev & Hev & HI1).
      destruct (IH r _ _ _ _ HI1 H) as (t & Ht & HI2). exists (ev :: t).
      rewrite <- app_assoc in HI2. split; [|exact HI2].
      destruct r as [[x b]|e]; simpl in Hev.
      + destruct Hev as [->|(f & -> & -> & ->)]; [eapply ExAlloc_skip|apply ExAlloc_run]; eassumption.
      + destruct Hev as [->|(-> & ->)]; [apply ExAlloc_fail|apply ExAlloc_err]; assumption.
    - oinv H. destruct a0 as [s1 r]. destruct (pr_input I P _ _ _ _ _ _ HI E) as (ev & Hev & HI1).
      destruct (IH r _ _ _ _ HI1 H) as (t & Ht & HI2). exists (ev :: t).
      rewrite <- app_assoc in HI2. split; [|exact HI2].
      destruct r as [[x b]|e]; simpl in Hev.
      + destruct Hev as [->|(f & -> & -> & ->)]; [eapply ExInput_skip|apply ExInput_run]; eassumption.
      + destruct Hev as [->|(-> & ->)]; [apply ExInput_fail|apply ExInput_err]; assumption.
    - oinv H. pose proof (pr_lc I P _ _ _ _ HI E) as HI1.
      destruct (IH _ _ _ _ HI1 H) as (t & Ht & HI2). exists (EvLC lc :: t).
      rewrite <- app_assoc in HI2. split; [constructor; exact Ht|exact HI2].
    - oinv H. destruct a0 as [s1 r]. destruct (pr_mul I P _ _ _ _ _ _ HI E) as (ev & Hev & HI1).
      destruct (IH r _ _ _ _ HI1 H) as (t & Ht & HI2). exists (ev :: t).
      rewrite <- app_assoc in HI2. split; [|exact HI2].
      destruct r as [[[[x y] z] b]|e]; simpl in Hev.
      + destruct Hev as [->|(f & -> & -> & ->)]; [eapply ExMul_skip|apply ExMul_run]; eassumption.
      + destruct Hev as [->|(-> & ->)]; [apply ExMul_fail|apply ExMul_err]; assumption.
    - oinv H. destruct (IH _ _ _ _ (pr_push I P _ _ _ _ HI E) H) as (t & Ht & HI2).
      exists t. split; [constructor; exact Ht|exact HI2].
    - oinv H. destruct (IH _ _ _ _ (pr_pop I P _ _ _ HI E) H) as (t & Ht & HI2).
      exists t. split; [constructor; exact Ht|exact HI2].
  Qed.

  (** *** Variables and counters, for any backend *)
  Definition used (s : Synth B) (x : Var) : Prop :=
    1 <= var_index x <= sn s /\
    forall i, current_variable s = Some i -> x <> VB i /\ x <> VC i.
  Definition pending (s : Synth B) : nat := match current_variable s with Some _ => 0 | None => 1 end.
  Record G (s : Synth B) (tr : list (event F)) : Prop := {
    g_cur : forall i, current_variable s = Some i -> 1 <= i <= sn s;
    g_nodup : NoDup (trace_vars tr);
    g_used : Forall (used s) (trace_vars tr);
    g_shape : Forall gate_shaped tr;
    g_count : Forall (fun ev => ~ failed ev) tr ->
      sq s = length (trace_lcs tr) /\
      2 * sn s = count_allocs tr + (1 - pending s) + 2 * count_gates tr
  }.

  Lemma trace_vars_app (t1 t2 : list (event F)) : trace_vars (t1 ++ t2) = trace_vars t1 ++ trace_vars t2.
  Proof. apply flat_map_app. Qed.
  Lemma trace_lcs_app (t1 t2 : list (event F)) : trace_lcs (t1 ++ t2) = trace_lcs t1 ++ trace_lcs t2.
  Proof. induction t1 as [|[] t1 IH]; simpl; rewrite ?IH; reflexivity. Qed.
  Lemma count_allocs_app (t1 t2 : list (event F)) : count_allocs (t1 ++ t2) = count_allocs t1 + count_allocs t2.
  Proof. induction t1 as [|[] t1 IH]; simpl; rewrite ?IH; reflexivity. Qed.
  Lemma count_gates_app (t1 t2 : list (event F)) : count_gates (t1 ++ t2) = count_gates t1 + count_gates t2.
  Proof. induction t1 as [|[] t1 IH]; simpl; rewrite ?IH; reflexivity. Qed.
  Lemma input_positions_app n (t1 t2 : list (event F)) :
    input_positions n (t1 ++ t2) = input_positions n t1 ++ input_positions (n + length (trace_lcs t1)) t2.
  Proof.
    revert n. induction t1 as [|[] t1 IH]; intro n; simpl; rewrite ?Nat.add_0_r, ?IH; try reflexivity;
      rewrite Nat.add_succ_r; reflexivity.
  Qed.
  Lemma input_values_app (t1 t2 : list (event F)) : input_values (t1 ++ t2) = input_values t1 ++ input_values t2.
  Proof. induction t1 as [|[] t1 IH]; simpl; rewrite ?IH; reflexivity. Qed.
  Lemma input_vars_app (t1 t2 : list (event F)) : input_vars (t1 ++ t2) = input_vars t1 ++ input_vars t2.
  Proof. induction t1 as [|[] t1 IH]; simpl; rewrite ?IH; reflexivity. Qed.
  Lemma expected_calls_app n (t1 t2 : list (event F)) :
    expected_calls n (t1 ++ t2) = expected_calls n t1 ++ expected_calls (n + length (trace_lcs t1)) t2.
  Proof.
    revert n. induction t1 as [|[] t1 IH]; intro n; simpl; rewrite ?Nat.add_0_r, ?IH; try reflexivity;
      rewrite Nat.add_succ_r, <- ?app_assoc; reflexivity.
  Qed.

  (** shape of the driver's state changes *)
  Definition alloc_step (s s' : Synth B) (r : res (Var * bool)) : Prop :=
    sq s' = sq s /\
    match current_variable s with
    | Some i => sn s' = sn s /\ current_variable s' = None /\
                match r with Ok (x, _) => x = VB i | Err _ => True end
    | None => sn s' = S (sn s) /\
              match r with
              | Ok (x, _) => x = VA (sn s') /\ current_variable s' = Some (sn s')
              | Err _ => current_variable s' = None
              end
    end.
  Lemma syn_alloc_step s ann v s' r : syn_alloc B s ann v = Some (s', r) -> alloc_step s s' r.
  Proof.
    unfold syn_alloc, alloc_step. destruct (current_variable s) as [i|].
    - intro H. oinv H. oinv H. destruct a0 as [[b called] r0]. destruct r0 as [u|e].
      + oinv H. destruct a0 as [[b2 called2] r2]. destruct r2 as [u2|e2]; injection H as <- <-; simpl; auto.
      + injection H as <- <-; simpl; auto.
    - intro H. oinv H. oinv H. destruct a0 as [[b called] r0].
      destruct r0 as [u|e]; injection H as <- <-; simpl; auto.
  Qed.
  Lemma syn_enforce_step s lc s' : syn_enforce_zero B s lc = Some s' ->
    sq s' = S (sq s) /\ sn s' = sn s /\ current_variable s' = current_variable s.
  Proof.
    unfold syn_enforce_zero. intro H. oinv H. destruct a as [b y]. oinv H. injection H as <-. auto.
  Qed.
  (** an input is an allocation, a constraint, and a tag; it may fail after the allocation *)
  Lemma syn_input_split s ann v s' r : syn_alloc_input B s ann v = Some (s', r) ->
    exists s1 r1, syn_alloc B s ann v = Some (s1, r1) /\
    match r1 with
    | Err e => s' = s1 /\ r = Err e
    | Ok (x, _) => exists s2, syn_enforce_zero B s1 (lc_add_v lc_zero x) = Some s2 /\
        exists b r2, b_new_k_power B (backend s2) (sq s2) (ok v) = Some (b, r2) /\
        s' = set_backend s2 b /\
        r = match r2 with Ok _ => Ok (x, true) | Err e => Err e end
    end.
  Proof.
    unfold syn_alloc_input. intro H. oinv H. destruct a as [s1 r1]. exists s1, r1. split; [exact E|].
    destruct r1 as [[x b]|e].
    - oinv H. exists a. split; [exact E0|]. oinv H. destruct a0 as [b2 r2]. exists b2, r2.
      split; [exact E1|]. destruct r2; injection H as <- <-; auto.
    - injection H as <- <-. auto.
  Qed.
  Definition mul_step (s s' : Synth B) (r : res (Var * Var * Var * bool)) : Prop :=
    sq s' = sq s /\ sn s' = S (sn s) /\ current_variable s' = current_variable s /\
    match r with
    | Ok (x, y, z, _) => x = VA (sn s') /\ y = VB (sn s') /\ z = VC (sn s')
    | Err _ => True
    end.
  Lemma syn_multiply_step s ann v s' r : syn_multiply B s ann v = Some (s', r) -> mul_step s s' r.
  Proof.
    unfold syn_multiply, mul_step. intro H. oinv H. oinv H. destruct a0 as [[b called] r0].
    destruct r0 as [u|e]; [|injection H as <- <-; simpl; auto].
    oinv H. destruct a0 as [[b2 called2] r2]. destruct r2 as [u2|e2]; [|injection H as <- <-; simpl; auto].
    oinv H. destruct a0 as [[b3 called3] r3].
    destruct r3 as [u3|e3]; injection H as <- <-; simpl; auto 10.
  Qed.

  Lemma nodup_snoc {A} (l : list A) x : NoDup l -> ~ In x l -> NoDup (l ++ [x]).
  Proof.
    intros H Hx. apply NoDup_rev in H. rewrite <- (rev_involutive (l ++ [x])). apply NoDup_rev.
    rewrite rev_unit. constructor; [rewrite <- in_rev; exact Hx|exact H].
  Qed.

  Lemma G_alloc_gen s tr s' r ev : G s tr -> alloc_step s s' r ->
    (match r with
     | Ok (x, _) => event_vars ev = [x] /\ gate_shaped ev /\ ~ failed ev /\ count_allocs [ev] = 1 /\
                    count_gates [ev] = 0 /\ length (trace_lcs [ev]) = 0
     | Err _ => failed ev
     end) -> G s' (tr ++ [ev]).
  Proof.
    intros [Hc Hn Hu Hs Hk] (Hq & Hst) Hev.
    assert (Hold : forall x, used s x -> used s' x).
    { unfold used. destruct (current_variable s) as [i|] eqn:Ec.
      - destruct Hst as (E1 & E2 & _). intros x [H1 H2]. rewrite E1, E2. split; [exact H1|discriminate].
      - destruct Hst as (E1 & E2). intros x [H1 H2]. rewrite E1. split; [lia|].
        intros i Hi. destruct r as [[y b]|e].
        + destruct E2 as [_ E2]. rewrite E2 in Hi. injection Hi as <-.
          split; intro; subst x; simpl in H1; lia.
        + rewrite E2 in Hi. discriminate Hi. }
    assert (Hc' : forall i, current_variable s' = Some i -> 1 <= i <= sn s').
    { destruct (current_variable s) as [i|].
      - destruct Hst as (E1 & E2 & _). rewrite E2. discriminate.
      - destruct Hst as (E1 & E2). destruct r as [[y b]|e].
        + destruct E2 as [_ E2]. rewrite E2. intros i Hi. injection Hi as <-. lia.
        + rewrite E2. discriminate. }
    assert (Hvars : trace_vars (tr ++ [ev]) = trace_vars tr ++ event_vars ev).
    { rewrite trace_vars_app. simpl. rewrite app_nil_r. reflexivity. }
    destruct r as [[x b]|e].
    - destruct Hev as (Ev & Esh & Hnf & Ea & Eg & El).
      assert (Hfresh : ~ In x (trace_vars tr) /\ used s' x).
      { rewrite Forall_forall in Hu. unfold used. destruct (current_variable s) as [i|] eqn:Ec.
        - destruct Hst as (E1 & E2 & ->). split.
          + intro Hin. destruct (Hu _ Hin) as [_ H]. destruct (H i Ec) as [H' _]. apply H'. reflexivity.
          + rewrite E1, E2. split; [simpl; apply Hc; auto|discriminate].
        - destruct Hst as (E1 & E2 & E3). subst x. split.
          + intro Hin. destruct (Hu _ Hin) as [H _]. simpl in H. lia.
          + simpl. split; [lia|]. intros; split; discriminate. }
      constructor.
      + exact Hc'.
      + rewrite Hvars, Ev. apply nodup_snoc; tauto.
      + rewrite Hvars, Ev. apply Forall_app. split.
        * eapply Forall_impl; [exact Hold|exact Hu].
        * constructor; [tauto|constructor].
      + apply Forall_app. split; [exact Hs|constructor; [exact Esh|constructor]].
      + intro Hf. apply Forall_app in Hf. destruct Hf as [Hf _]. destruct (Hk Hf) as [K1 K2].
        rewrite trace_lcs_app, app_length, El, count_allocs_app, count_gates_app, Ea, Eg, Hq, K1.
        split; [lia|]. unfold pending in *. destruct (current_variable s) as [i|].
        * destruct Hst as (E1 & E2 & _). rewrite E1, E2. lia.
        * destruct Hst as (E1 & E2 & E3). rewrite E3, E1. lia.
    - assert (Enil : event_vars ev = []) by (destruct ev; simpl in Hev; tauto).
      constructor.
      + exact Hc'.
      + rewrite Hvars, Enil, app_nil_r. exact Hn.
      + rewrite Hvars, Enil, app_nil_r. eapply Forall_impl; [exact Hold|exact Hu].
      + apply Forall_app. split; [exact Hs|]. constructor; [|constructor]. destruct ev; simpl in *; tauto.
      + intro Hf. apply Forall_app in Hf. destruct Hf as [_ Hf]. inversion Hf; subst. contradiction.
  Qed.

  Lemma G_alloc s tr ann v s' r ev : G s tr -> syn_alloc B s ann v = Some (s', r) ->
    alloc_event v r ev -> G s' (tr ++ [ev]).
  Proof.
    intros HG H Hev. eapply G_alloc_gen; [exact HG|apply syn_alloc_step in H; exact H|].
    destruct r as [[x b]|e]; simpl in Hev.
    - destruct Hev as [->|(f & _ & _ & ->)]; simpl; auto 10.
    - destruct Hev as [->|(_ & ->)]; simpl; auto.
  Qed.

  Lemma G_lc s tr lc s' : G s tr -> syn_enforce_zero B s lc = Some s' -> G s' (tr ++ [EvLC lc]).
  Proof.
    intros [Hc Hn Hu Hs Hk] H. apply syn_enforce_step in H. destruct H as (E1 & E2 & E3).
    constructor.
    - rewrite E2, E3. exact Hc.
    - rewrite trace_vars_app. simpl. rewrite app_nil_r. exact Hn.
    - rewrite trace_vars_app. simpl. rewrite app_nil_r. unfold used. rewrite E2, E3. exact Hu.
    - apply Forall_app. split; [exact Hs|repeat constructor].
    - intro Hf. apply Forall_app in Hf. destruct Hf as [Hf _]. destruct (Hk Hf) as [K1 K2].
      rewrite trace_lcs_app, app_length, count_allocs_app, count_gates_app.
      cbn [length trace_lcs count_allocs count_gates].
      unfold pending in *. rewrite E1, E2, E3. split; lia.
  Qed.

  Lemma G_input s tr ann v s' r ev : G s tr -> syn_alloc_input B s ann v = Some (s', r) ->
    input_event v r ev -> G s' (tr ++ [ev]).
  Proof.
    intros HG H Hev. apply syn_input_split in H. destruct H as (s1 & r1 & Ha & H).
    destruct r1 as [[x b]|e].
    - destruct H as (s2 & Hl & b2 & r2 & _ & -> & ->).
      assert (G1 : G s1 (tr ++ [EvAlloc x None])).
      { eapply G_alloc; [exact HG|exact Ha|]. simpl. auto. }
      pose proof (G_lc _ _ _ _ G1 Hl) as [Hc Hn Hu Hs Hk].
      rewrite trace_vars_app, trace_vars_app in *. simpl in *. rewrite app_nil_r in *.
      assert (Hv : event_vars ev = [x] \/ event_vars ev = [] /\ failed ev).
      { destruct r2; simpl in Hev.
        - destruct Hev as [->|(f & _ & _ & ->)]; auto.
        - destruct Hev as [->|(_ & ->)]; simpl; auto. }
      constructor.
      + exact Hc.
      + rewrite trace_vars_app. simpl. rewrite app_nil_r.
        destruct Hv as [->|[-> _]]; [exact Hn|]. rewrite app_nil_r. destruct HG; assumption.
      + rewrite trace_vars_app. simpl. rewrite app_nil_r. change (used (set_backend s2 b2)) with (used s2).
        destruct Hv as [->|[-> _]]; [exact Hu|]. rewrite app_nil_r. apply Forall_app in Hu. tauto.
      + apply Forall_app. split.
        * rewrite !Forall_app in Hs. tauto.
        * constructor; [|constructor]. destruct r2; simpl in Hev.
          -- destruct Hev as [->|(f & _ & _ & ->)]; simpl; auto.
          -- destruct Hev as [->|(_ & ->)]; simpl; auto.
      + intro Hf. rewrite Forall_app in Hf. destruct Hf as [Hf1 Hf2].
        destruct r2; simpl in Hev.
        2:{ exfalso. inversion Hf2 as [|? ? Hf3 ?]; subst. apply Hf3.
            destruct Hev as [->|(_ & ->)]; simpl; auto. }
        assert (Hall : Forall (fun ev => ~ failed ev) ((tr ++ [EvAlloc x None]) ++ [EvLC (lc_add_v lc_zero x)])).
        { rewrite !Forall_app. repeat split; auto. }
        destruct (Hk Hall) as [K1 K2].
        assert (E : count_allocs [ev] = 1 /\ count_gates [ev] = 0 /\ length (trace_lcs [ev]) = 1).
        { destruct Hev as [->|(f & _ & _ & ->)]; simpl; auto. }
        destruct E as (E1 & E2 & E3).
        rewrite !trace_lcs_app, !app_length, !count_allocs_app, !count_gates_app in *.
        cbn [length trace_lcs count_allocs count_gates] in K1, K2.
        rewrite E1, E2, E3. unfold pending in *. cbn [set_backend current_variable sn sq] in *. destruct (current_variable s2); lia.
    - destruct H as [-> ->]. eapply G_alloc_gen; [exact HG|apply syn_alloc_step in Ha; exact Ha|].
      simpl in *. destruct Hev as [->|(_ & ->)]; simpl; auto.
  Qed.

  Lemma G_mul s tr ann v s' r ev : G s tr -> syn_multiply B s ann v = Some (s', r) ->
    mul_event v r ev -> G s' (tr ++ [ev]).
  Proof.
    intros [Hc Hn Hu Hs Hk] H Hev. apply syn_multiply_step in H. destruct H as (E1 & E2 & E3 & Hr).
    assert (Hold : forall x, used s x -> used s' x).
    { unfold used. rewrite E2, E3. intros x [H1 H2]. split; [lia|exact H2]. }
    assert (Hc' : forall i, current_variable s' = Some i -> 1 <= i <= sn s').
    { rewrite E3, E2. intros i Hi. specialize (Hc i Hi). lia. }
    assert (Hvars : trace_vars (tr ++ [ev]) = trace_vars tr ++ event_vars ev).
    { rewrite trace_vars_app. simpl. rewrite app_nil_r. reflexivity. }
    destruct r as [[[[x y] z] b]|e].
    - destruct Hr as (-> & -> & ->).
      assert (E : event_vars ev = [VA (sn s'); VB (sn s'); VC (sn s')] /\ gate_shaped ev /\
                  count_allocs [ev] = 0 /\ count_gates [ev] = 1 /\ length (trace_lcs [ev]) = 0).
      { simpl in Hev. destruct Hev as [->|(f & _ & _ & ->)]; simpl; eauto 10. }
      destruct E as (Ev & Esh & Ea & Eg & El).
      assert (Hfr : forall x, var_index x = sn s' -> ~ In x (trace_vars tr) /\ used s' x).
      { intros x Hx. rewrite Forall_forall in Hu. split.
        - intro Hin. destruct (Hu _ Hin) as [H1 _]. lia.
        - unfold used. split; [lia|]. rewrite E3. intros i Hi. specialize (Hc i Hi).
          split; intro; subst x; simpl in Hx; lia. }
      constructor.
      + exact Hc'.
      + rewrite Hvars, Ev. change [VA (sn s'); VB (sn s'); VC (sn s')]
          with ([VA (sn s')] ++ [VB (sn s')] ++ [VC (sn s')]). rewrite !app_assoc.
        apply nodup_snoc; [apply nodup_snoc; [apply nodup_snoc; [exact Hn|]|]|];
          rewrite ?in_app_iff; simpl;
          intro Hin; repeat (destruct Hin as [Hin|Hin]);
          try discriminate Hin; try contradiction; revert Hin; apply Hfr; reflexivity.
      + rewrite Hvars, Ev. apply Forall_app. split; [eapply Forall_impl; [exact Hold|exact Hu]|].
        repeat (apply Forall_cons; [apply Hfr; reflexivity|]); constructor.
      + apply Forall_app. split; [exact Hs|constructor; [exact Esh|constructor]].
      + intro Hf. apply Forall_app in Hf. destruct Hf as [Hf _]. destruct (Hk Hf) as [K1 K2].
        rewrite trace_lcs_app, app_length, El, count_allocs_app, count_gates_app, Ea, Eg, E1, K1.
        split; [lia|]. unfold pending in *. rewrite E3, E2. lia.
    - assert (Hfl : failed ev) by (destruct Hev as [->|(_ & ->)]; simpl; auto).
      assert (Enil : event_vars ev = []) by (destruct ev; simpl in Hfl; tauto).
      constructor.
      + exact Hc'.
      + rewrite Hvars, Enil, app_nil_r. exact Hn.
      + rewrite Hvars, Enil, app_nil_r. eapply Forall_impl; [exact Hold|exact Hu].
      + apply Forall_app. split; [exact Hs|]. constructor; [|constructor]. destruct ev; simpl in *; tauto.
      + intro Hf. apply Forall_app in Hf. destruct Hf as [_ Hf]. inversion Hf; subst. contradiction.
  Qed.
  Lemma G_backend s tr b : G s tr -> G (set_backend s b) tr.
  Proof. intros [Hc Hn Hu Hs Hk]. constructor; auto. Qed.
  Lemma G_init b : G (mkSynth b None 0 0) [].
  Proof. constructor; simpl; try discriminate; repeat constructor. Qed.

  (** [Basic::synthesize] from the invariant of its operations. *)
  Lemma basic_inv I b circuit s r : Preserved I -> I (mkSynth b None 0 0) [] ->
    basic_synthesize B b circuit = Some (s, r) ->
    exists o tr, (o = None \/ o = Some fone) /\ Exec (circuit (VA 1)) tr (Some r) /\
      I s (EvInput (VA 1) o :: tr).
  Proof.
    intros P H0 H. unfold basic_synthesize in H. oinv H. destruct a as [s1 r1].
    destruct (pr_input I P _ _ _ _ _ _ H0 E) as (ev & Hev & HI).
    destruct r1 as [[x b1]|e]; [|discriminate H].
    destruct x as [[|[|i]]| |]; try discriminate H.
    destruct (syn_run_inv I P _ _ _ _ _ HI H) as (t & Ht & HI2). simpl in *.
    destruct Hev as [->|(f & Ef & _ & ->)].
    - exists None, t. auto.
    - injection Ef as <-. exists (Some fone), t. auto.
  Qed.
End Driver.

(** *** The calls made to the backend *)
Section Logged.
  Context {F : Field} (B : Backend F).
  Let L := logged B.
  Definition log_of (s : Synth L) : list (call F) := snd (backend s : BState B * list (call F)).
  Definition lc_log (s : Synth L) := filter about_lc (log_of s).

  Lemma insert_all_log lc y : forall (b : BState L) b', insert_all L b lc y = Some b' ->
    snd b' = snd b ++ insert_calls lc.
  Proof.
    induction lc as [|[x c] lc IH]; simpl; intros b b' H.
    - injection H as <-. rewrite app_nil_r. reflexivity.
    - oinv H. oinv E. injection E as <-. apply IH in H. rewrite H. simpl. rewrite <- app_assoc. reflexivity.
  Qed.
  Lemma filter_inserts (lc : LC F) : filter about_lc (insert_calls lc) = insert_calls lc.
  Proof. induction lc as [|[x c] lc IH]; simpl; [|rewrite IH]; reflexivity. Qed.
  Lemma filter_inserts_gate (lc : LC F) : filter is_gate_call (insert_calls lc) = [].
  Proof. induction lc as [|[x c] lc IH]; simpl; [|rewrite IH]; reflexivity. Qed.

  Record LI (s : Synth L) (tr : list (event F)) : Prop := {
    li_G : G L s tr;
    li_gates : length (filter is_gate_call (log_of s)) = sn s;
    li_sq : length (filter (fun c => match c with CallNewLC => true | _ => false end) (log_of s)) = sq s;
    li_lc : Forall (fun ev => ~ failed ev) tr -> lc_log s = expected_calls 0 tr
  }.
  Definition is_new_lc (c : call F) : bool := match c with CallNewLC => true | _ => false end.
  Lemma filter_inserts_new (lc : LC F) : filter is_new_lc (insert_calls lc) = [].
  Proof. induction lc as [|[x c] lc IH]; simpl; [|rewrite IH]; reflexivity. Qed.

  Ltac fin H := injection H as <- <-; simpl; rewrite !filter_app; simpl;
    rewrite ?app_nil_r, ?app_length; simpl; repeat split; lia.
  Lemma set_var_log b ann x v b' called r : b_set_var L b ann x v = Some (b', called, r) ->
    snd b' = snd b ++ [CallSet x].
  Proof.
    simpl. intro H. oinva H as [[b0 c0] r0]. injection H as <- <- <-. reflexivity.
  Qed.
  Lemma gate_log b ann b' : b_new_multiplication_gate L b ann = Some b' ->
    snd b' = snd b ++ [CallGate].
  Proof. simpl. intro H. oinva H as b0. injection H as <-. reflexivity. Qed.
  Ltac logs := repeat match goal with
    | E : b_set_var L _ _ _ _ = Some _ |- _ => apply set_var_log in E
    | E : b_new_multiplication_gate L _ _ = Some _ |- _ => apply gate_log in E
    end; cbn [backend sn sq current_variable] in *;
    repeat match goal with E : snd ?b = _ |- _ => rewrite E; clear E end;
    rewrite !filter_app; simpl; rewrite ?app_nil_r, ?app_length; simpl; repeat split; try lia.

  Lemma alloc_log s ann v s' r : syn_alloc L s ann v = Some (s', r) ->
    lc_log s' = lc_log s /\ filter is_new_lc (log_of s') = filter is_new_lc (log_of s) /\
    length (filter is_gate_call (log_of s')) =
      length (filter is_gate_call (log_of s)) + (sn s' - sn s) /\ sn s <= sn s'.
  Proof.
    unfold syn_alloc, lc_log, log_of. destruct (current_variable s) as [i|].
    - intro H. oinva H as va. oinva H as [[b called] r0]. destruct r0 as [u|e].
      + oinva H as [[b2 called2] r2]. destruct r2; injection H as <- <-; logs.
      + injection H as <- <-. logs.
    - intro H. oinva H as b. oinva H as [[b1 called] r0].
      destruct r0; injection H as <- <-; logs; destruct (sn s); lia.
  Qed.
  Lemma enforce_log s lc s' : syn_enforce_zero L s lc = Some s' ->
    lc_log s' = lc_log s ++ CallNewLC :: insert_calls lc /\
    length (filter is_new_lc (log_of s')) = S (length (filter is_new_lc (log_of s))) /\
    filter is_gate_call (log_of s') = filter is_gate_call (log_of s).
  Proof.
    unfold syn_enforce_zero, lc_log, log_of. intro H. oinva H as [b y].
    simpl in E. oinva E as [b1 y1]. injection E as <- <-. oinva H as b2. injection H as <-.
    match goal with E : insert_all _ _ _ _ = _ |- _ => apply insert_all_log in E; simpl in E end.
    cbn [backend]. rewrite E. rewrite !filter_app, filter_inserts, filter_inserts_gate,
      filter_inserts_new. simpl. rewrite ?app_nil_r, <- ?app_assoc, ?app_length. simpl. repeat split. lia.
  Qed.
  Lemma mul_log s ann v s' r : syn_multiply L s ann v = Some (s', r) ->
    lc_log s' = lc_log s /\ filter is_new_lc (log_of s') = filter is_new_lc (log_of s) /\
    length (filter is_gate_call (log_of s')) = S (length (filter is_gate_call (log_of s))).
  Proof.
    unfold syn_multiply, lc_log, log_of. intro H. oinva H as b. oinva H as [[b0 c0] r0].
    destruct r0 as [u|e]; [|injection H as <- <-; logs].
    oinva H as [[b1 c1] r1]. destruct r1 as [u1|e1]; [|injection H as <- <-; logs].
    oinva H as [[b2 c2] r2]. destruct r2; injection H as <- <-; logs.
  Qed.

  Lemma LI_input s tr ann v s' r : LI s tr -> syn_alloc_input L s ann v = Some (s', r) ->
    let ev := match r with Ok (x, b) => EvInput x (ok v) | Err e => EvFail e end in
    input_event v r ev /\ LI s' (tr ++ [ev]).
  Proof.
    intros [HG Hg Hq Hl] H.
      pose proof H as H0. apply syn_input_split in H. destruct H as (s1 & r1 & Ha & H).
      assert (Hev : input_event v r (match r with Ok (x, b) => EvInput x (ok v) | Err e => EvFail e end)).
      { destruct r1 as [[x b]|e].
        - destruct H as (s2 & _ & b2 & r2 & _ & _ & ->). destruct r2; simpl; auto. destruct v; simpl; eauto.
        - destruct H as [_ ->]. simpl. auto. }
      split; [exact Hev|]. pose proof (G_input L _ _ _ _ _ _ _ HG H0 Hev) as HG'.
      pose proof (syn_alloc_step L _ _ _ _ _ Ha) as [Hsq _].
      apply alloc_log in Ha. destruct Ha as (A1 & A2 & A3 & A4).
      destruct r1 as [[x b]|e].
      + destruct H as (s2 & He & b2 & r2 & Hk & -> & ->).
        pose proof (syn_enforce_step L _ _ _ He) as (E1 & E2 & E3).
        apply enforce_log in He. destruct He as (B1 & B2 & B3).
        simpl in Hk. oinv Hk. destruct a as [b0 r0]. injection Hk as <- <-.
        assert (Elog : log_of (set_backend L s2 (b0, snd (backend s2) ++ [CallKPower (sq s2) (ok v)]))
                       = log_of s2 ++ [CallKPower (sq s2) (ok v)]) by reflexivity.
        constructor.
        * exact HG'.
        * rewrite Elog, filter_app. simpl. rewrite app_nil_r, B3, A3, Hg, E2. lia.
        * rewrite Elog, filter_app. simpl. rewrite app_nil_r. unfold is_new_lc in *.
          rewrite B2, A2, Hq, E1, Hsq. reflexivity.
        * intro Hf. unfold lc_log. rewrite Elog, filter_app. fold (lc_log s2). rewrite B1, A1.
          rewrite Forall_app in Hf. destruct Hf as [Hf Hf2]. rewrite (Hl Hf), expected_calls_app.
          destruct r0 as [u|e].
          2:{ inversion Hf2; subst. simpl in *. tauto. }
          simpl. rewrite <- app_assoc. simpl. destruct HG as [_ _ _ _ Hk]. destruct (Hk Hf) as [K _].
          rewrite E1, Hsq, K. reflexivity.
      + destruct H as [-> ->]. constructor.
        * exact HG'.
        * rewrite A3, Hg. lia.
        * unfold is_new_lc in A2. rewrite A2, Hq, Hsq. reflexivity.
        * intro Hf. rewrite Forall_app in Hf. destruct Hf as [_ Hf]. inversion Hf; subst. simpl in *. tauto.
  Qed.
  Lemma LI_preserved : Preserved L LI.
  Proof.
    constructor.
    - intros s tr ann v s' r [HG Hg Hq Hl] H.
      exists (match r with Ok (x, b) => EvAlloc x None | Err e => EvFail e end).
      assert (Hev : alloc_event v r (match r with Ok (x, b) => EvAlloc x None | Err e => EvFail e end))
        by (destruct r as [[x b]|e]; simpl; auto).
      split; [exact Hev|]. pose proof (G_alloc L _ _ _ _ _ _ _ HG H Hev) as HG'.
      pose proof (syn_alloc_step L _ _ _ _ _ H) as [Hsq _].
      apply alloc_log in H. destruct H as (A1 & A2 & A3 & A4). constructor.
      + exact HG'.
      + rewrite A3, Hg. lia.
      + unfold is_new_lc in A2. rewrite A2, Hq, Hsq. reflexivity.
      + intro Hf. rewrite Forall_app in Hf. destruct Hf as [Hf _].
        rewrite A1, (Hl Hf), expected_calls_app. destruct r as [[x b]|e]; simpl; rewrite app_nil_r; reflexivity.
    - intros s tr ann v s' r HI H. eexists. apply (LI_input _ _ _ _ _ _ HI H).
    - intros s tr lc s' [HG Hg Hq Hl] H. pose proof (G_lc L _ _ _ _ HG H) as HG'.
      pose proof (syn_enforce_step L _ _ _ H) as (E1 & E2 & E3).
      apply enforce_log in H. destruct H as (B1 & B2 & B3). constructor.
      + exact HG'.
      + rewrite B3, Hg, E2. reflexivity.
      + unfold is_new_lc in *. rewrite B2, Hq, E1. reflexivity.
      + intro Hf. rewrite Forall_app in Hf. destruct Hf as [Hf _].
        rewrite B1, (Hl Hf), expected_calls_app. simpl. rewrite app_nil_r. reflexivity.
    - intros s tr ann v s' r [HG Hg Hq Hl] H.
      exists (match r with Ok (x, y, z, b) => EvMul x y z None | Err e => EvFail e end).
      assert (Hev : mul_event v r (match r with Ok (x, y, z, b) => EvMul x y z None | Err e => EvFail e end))
        by (destruct r as [[[[x y] z] b]|e]; simpl; auto).
      split; [exact Hev|]. pose proof (G_mul L _ _ _ _ _ _ _ HG H Hev) as HG'.
      pose proof (syn_multiply_step L _ _ _ _ _ H) as (E1 & E2 & E3 & _).
      apply mul_log in H. destruct H as (A1 & A2 & A3). constructor.
      + exact HG'.
      + rewrite A3, Hg, E2. reflexivity.
      + unfold is_new_lc in A2. rewrite A2, Hq, E1. reflexivity.
      + intro Hf. rewrite Forall_app in Hf. destruct Hf as [Hf _].
        rewrite A1, (Hl Hf), expected_calls_app. destruct r as [[[[x y] z] b]|e]; simpl; rewrite app_nil_r; reflexivity.
    - intros s tr n b [HG Hg Hq Hl] H. simpl in H. oinv H. injection H as <-. constructor; auto.
      apply G_backend. exact HG.
    - intros s tr b [HG Hg Hq Hl] H. simpl in H. oinv H. injection H as <-. constructor; auto.
      apply G_backend. exact HG.
  Qed.
  Lemma LI_init (b : BState B) : LI (@mkSynth F L (b, []) None 0 0) [].

  Proof. constructor; try reflexivity. apply G_init. Qed.

  Lemma count_lcs_calls n (tr : list (event F)) :
    length (filter is_new_lc (expected_calls n tr)) = length (trace_lcs tr).
  Proof.
    revert n. induction tr as [|[] tr IH]; intro n; simpl; rewrite ?filter_app, ?filter_inserts_new; simpl;
      rewrite ?IH; reflexivity.
  Qed.

  Lemma driver_calls (b : BState B) circuit s r :
    basic_synthesize L (b, []) circuit = Some (s, r) ->
    exists tr,
      Exec (circuit (VA 1)) tr (Some r) /\
      NoDup (VA 1 :: trace_vars tr) /\ Forall gate_shaped tr /\
      length (filter is_gate_call (log_of s)) = sn s /\
      (Forall (fun ev => ~ failed ev) tr ->
         sn s = count_gates tr + (count_allocs tr + 2) / 2 /\
         sq s = S (length (trace_lcs tr)) /\
         filter about_lc (log_of s) = expected_calls 0 (EvInput (VA 1) (Some fone) :: tr)).
  Proof.
    intro H. unfold basic_synthesize in H. oinva H as [s1 r1].
    destruct (LI_input _ _ _ _ _ _ (LI_init b) E) as (_ & HI).
    destruct r1 as [[[[|[|i]]| |] b1]|e]; try discriminate H. cbn [ok app] in HI.
    destruct (syn_run_inv L LI LI_preserved _ _ _ _ _ HI H) as (tr & He & [HG Hg Hq Hl]).
    cbn [app] in *. exists tr. split; [exact He|]. destruct HG as [Hc Hn Hu Hs Hk].
    split; [exact Hn|]. split; [inversion Hs; assumption|]. split; [exact Hg|].
    intro Hf. assert (Hf' : Forall (fun ev => ~ failed ev) (EvInput (VA 1) (Some fone) :: tr))
      by (constructor; [simpl; tauto|exact Hf]).
    destruct (Hk Hf') as [K1 K2]. specialize (Hl Hf'). split; [|split].
    - cbn [count_allocs count_gates] in K2. unfold pending in K2. destruct (current_variable s).
      + replace (count_allocs tr + 2) with ((sn s - count_gates tr) * 2) by lia.
        rewrite Nat.div_mul by lia. lia.
      + replace (count_allocs tr + 2) with ((sn s - count_gates tr) * 2 + 1) by lia.
        rewrite Nat.div_add_l by lia. simpl. lia.
    - exact K1.
    - exact Hl.
  Qed.
End Logged.

(** Logging does not change the run. *)
Section Unlog.
  Context {F : Field} (B : Backend F).
  Let L := logged B.
  Definition unlog (s : Synth L) : Synth B :=
    mkSynth (fst (backend s : BState B * list (call F))) (current_variable s) (sq s) (sn s).
  Definition unlog1 {A} (x : Synth L * A) : Synth B * A := (unlog (fst x), snd x).

  Ltac sim := repeat (cbn [unlog backend current_variable sq sn fst snd obind option_map b_set_var b_get_var
      b_new_multiplication_gate b_new_linear_constraint b_insert_coefficient b_new_k_power
      logged L] in *; try reflexivity;
    match goal with
    | |- context [obind (obind ?o _) _] => destruct o as [[[? ?] [?|?]]|] eqn:?
    | |- context [obind (obind ?o _) _] => destruct o as [[? [?|?]]|] eqn:?
    | |- context [obind (obind ?o _) _] => destruct o as [[? ?]|] eqn:?
    | |- context [obind (obind ?o _) _] => destruct o as [?|] eqn:?
    | |- context [obind (b_get_var B ?s ?v) _] => destruct (b_get_var B s v) eqn:?
    end).

  Lemma unlog_alloc s ann v :
    syn_alloc B (unlog s) ann v = option_map unlog1 (syn_alloc L s ann v).
  Proof. unfold syn_alloc, unlog1. cbn [current_variable unlog]. destruct (current_variable s); sim. Qed.
  Lemma unlog_insert lc y : forall b : BState L,
    insert_all B (fst b) lc y = option_map fst (insert_all L b lc y).
  Proof.
    induction lc as [|[x c] lc IH]; intro b; simpl; [reflexivity|].
    destruct (b_insert_coefficient B (fst b) x c y); simpl; [apply (IH (b0, _))|reflexivity].
  Qed.
  Lemma unlog_enforce s lc : syn_enforce_zero B (unlog s) lc = option_map unlog (syn_enforce_zero L s lc).
  Proof.
    unfold syn_enforce_zero. simpl.
    destruct (b_new_linear_constraint B (fst (backend s)) "TODO_LINEAR") as [[b y]|]; simpl; [|reflexivity].
    pose proof (unlog_insert lc y (b, snd (backend s) ++ [CallNewLC])) as E. cbn [fst] in E. rewrite E.
    change (insert_all (logged B)) with (insert_all L).
    destruct (insert_all L (b, snd (backend s) ++ [CallNewLC]) lc y); reflexivity.
  Qed.
  Lemma unlog_input s ann v :
    syn_alloc_input B (unlog s) ann v = option_map unlog1 (syn_alloc_input L s ann v).
  Proof.
    unfold syn_alloc_input. rewrite unlog_alloc. destruct (syn_alloc L s ann v) as [[s1 [[x b]|e]]|]; simpl; try reflexivity.
    rewrite unlog_enforce. destruct (syn_enforce_zero L s1 (lc_add_v lc_zero x)) as [s2|]; simpl; [|reflexivity].
    destruct (b_new_k_power B (fst (backend s2)) (sq s2) (ok v)) as [[b2 [u|e]]|]; reflexivity.
  Qed.
  Lemma unlog_multiply s ann v :
    syn_multiply B (unlog s) ann v = option_map unlog1 (syn_multiply L s ann v).
  Proof. unfold syn_multiply, unlog1. cbn [current_variable unlog]. sim. Qed.
  Lemma unlog_run {A} (p : Prog F A) : forall s,
    syn_run B p (unlog s) = option_map unlog1 (syn_run L p s).
  Proof.
    induction p as [a0| |ann v k IH|ann v k IH|lc k IH|ann v k IH|n k IH|k IH]; intro s; cbn [syn_run].
    - reflexivity.
    - reflexivity.
    - rewrite unlog_alloc. destruct (syn_alloc L s ann v) as [[s1 r]|]; simpl; [apply IH|reflexivity].
    - rewrite unlog_input. destruct (syn_alloc_input L s ann v) as [[s1 r]|]; simpl; [apply IH|reflexivity].
    - rewrite unlog_enforce. destruct (syn_enforce_zero L s lc) as [s1|]; simpl; [apply IH|reflexivity].
    - rewrite unlog_multiply. destruct (syn_multiply L s ann v) as [[s1 r]|]; simpl; [apply IH|reflexivity].
    - simpl. destruct (b_push_namespace B (fst (backend s)) n) as [b|]; simpl; [|reflexivity].
      rewrite <- IH. reflexivity.
    - simpl. destruct (b_pop_namespace B (fst (backend s))) as [b|]; simpl; [|reflexivity].
      rewrite <- IH. reflexivity.
  Qed.
  Lemma unlog_basic (b : BState B) circuit :
    basic_synthesize B b circuit = option_map unlog1 (basic_synthesize L (b, []) circuit).
  Proof.
    unfold basic_synthesize. change (mkSynth b None 0 0) with (unlog (@mkSynth F L (b, []) None 0 0)).
    rewrite unlog_input.
    destruct (syn_alloc_input L (@mkSynth F L (b, []) None 0 0) "one" (Ok fone)) as [[s1 r]|]; simpl; [|reflexivity].
    destruct r as [[[[|[|i]]| |] bb]|e]; try reflexivity. apply unlog_run.
  Qed.
End Unlog.

(** The two together: any backend, any circuit. *)
Lemma driver_spec {F : Field} (B : Backend F) (b : BState B) circuit s r :
  basic_synthesize B b circuit = Some (s, r) ->
  exists b' calls tr,
    basic_synthesize (logged B) (b, []) circuit
      = Some (@mkSynth F (logged B) (b', calls) (current_variable s) (sq s) (sn s), r) /\
    b' = backend s /\
    Exec (circuit (VA 1)) tr (Some r) /\
    NoDup (VA 1 :: trace_vars tr) /\ Forall gate_shaped tr /\
    length (filter is_gate_call calls) = sn s /\
    (Forall (fun ev => ~ failed ev) tr ->
       sn s = count_gates tr + (count_allocs tr + 2) / 2 /\
       sq s = S (length (trace_lcs tr)) /\
       filter about_lc calls = expected_calls 0 (EvInput (VA 1) (Some fone) :: tr)).
Proof.
  intro H. rewrite unlog_basic in H.
  destruct (basic_synthesize (logged B) (b, []) circuit) as [[[[b' calls] cv q n] r']|] eqn:E; simpl in H; [|discriminate H].
  injection H as <- <-. destruct (driver_calls B b circuit _ _ E) as (tr & H).
  exists b', calls, tr. simpl in *. tauto.
Qed.
