(** From circuits that make the same calls to the systems of constraints they describe. *)
From Coq Require Import String List Bool Arith Lia Ring.
From Verif Require Import Model.FieldTrait Model.Circuits Spec.FieldLaws Spec.CircuitSpec Spec.SystemSpec Spec.UniformSpec
  Proofs.FieldGen Proofs.DriverP Proofs.SystemP.
Import ListNotations.
Open Scope list_scope. Open Scope nat_scope.
Notation length := List.length.

Section Same.
  Context {F : Field}.
  (** two layouts up to their values *)
  Definition same_shape (s t : layout F) : Prop := l_half s = l_half t /\ l_gates s = l_gates t /\ l_lcs s = l_lcs t /\ l_inputs s = l_inputs t.
  Lemma shape_wire s t v v' : same_shape s t -> same_shape (fst (lay_wire s v)) (fst (lay_wire t v')) /\ snd (lay_wire s v) = snd (lay_wire t v').
  Proof. intros (H & G & L & I). unfold lay_wire. rewrite <- H, <- G, <- L, <- I. destruct (l_half s); cbn [fst snd]; repeat split; assumption. Qed.
  Lemma shape_input s t v v' : same_shape s t -> same_shape (fst (lay_input s v)) (fst (lay_input t v')) /\ snd (lay_input s v) = snd (lay_input t v').
  Proof.
    intro H. destruct (shape_wire s t v v' H) as ((H1 & H2 & H3 & H4) & H5). rewrite !lay_input_split. cbv zeta. cbn [fst snd].
    split; [|exact H5]. unfold same_shape. cbn [lay_lc l_half l_gates l_lcs l_inputs]. rewrite H3, H4, H5. repeat split; assumption.
  Qed.
  Lemma fails_lay {A} ran (p : CS F A) : fails p -> forall s s' a, lay ran p s <> Some (s', Ok a).
  Proof. intro H. induction H; cbn [lay]; intros s0 s' a E; [discriminate E|eapply IHfails; exact E|eapply IHfails; exact E]. Qed.
  Lemma alike_lay {A B} inp (R : A -> B -> Prop) (p : CS F A) (q : CS F B) : alike inp (fun _ => True) R p q ->
    forall ran s s' t a, lay ran p s = Some (s', Ok a) -> same_shape s t -> exists t' b, lay false q t = Some (t', Ok b) /\ same_shape s' t' /\ R a b.
  Proof.
    intro H. induction H as [a b HR|p q HF|q|ann v k ann' v' k' He Hk IH|ann v k ann' v' k' Hi He Hk IH|lc k k' HV Hk IH|ann v k ann' v' k' He Hk IH|n n' k k' Hk IH|k k' Hk IH];
      intros ran s s' t a0 E HS; cbn [lay] in *.
    - injection E as <- <-. exists t, b. repeat split; try apply HS. exact HR.
    - destruct (fails_lay ran p HF _ _ _ E).
    - discriminate E.
    - destruct (value_of ran fzero v) as [x|]; [|discriminate E]. cbn [value_of]. destruct (shape_wire s t x fzero HS) as (HS1 & EV).
      destruct (lay_wire s x) as [s1 y]. destruct (lay_wire t fzero) as [t1 y']. cbn [fst snd] in *. subst y'. exact (IH y ran I _ _ _ _ _ E HS1).
    - destruct (value_of ran fzero v) as [x|]; [|discriminate E]. cbn [value_of]. destruct (shape_input s t x fzero HS) as (HS1 & EV).
      destruct (lay_input s x) as [s1 y]. destruct (lay_input t fzero) as [t1 y']. cbn [fst snd] in *. subst y'. exact (IH y true I _ _ _ _ _ E HS1).
    - destruct HS as (H1 & H2 & H3 & H4). rewrite <- H2. destruct (forallb _ lc); [|discriminate E].
      apply (IH _ _ _ _ _ E). repeat split; cbn [lay_lc l_half l_gates l_lcs l_inputs]; congruence.
    - destruct (value_of ran _ v) as [[[x y] z]|]; [|discriminate E]. cbn [value_of]. destruct HS as (H1 & H2 & H3 & H4).
      cbn [lay_gate l_gates] in *. rewrite <- H2. refine (IH _ _ _ ran I I I _ _ _ _ _ E _). repeat split; cbn [lay_gate l_half l_gates l_lcs l_inputs]; congruence.
    - exact (IH _ _ _ _ _ E HS).
    - exact (IH _ _ _ _ _ E HS).
  Qed.
  (** A circuit without public inputs of its own leaves them as they are. *)
  Lemma alike_no_inputs {A B} (V : Var -> Prop) (R : A -> B -> Prop) (p : CS F A) (q : CS F B) : (forall x, V x) -> alike False V R p q ->
    forall ran s s' a, lay ran p s = Some (s', Ok a) -> l_inputs s' = l_inputs s /\ l_values s' = l_values s.
  Proof.
    intros HV H. induction H as [a b HR|p q HF|q|ann v k ann' v' k' He Hk IH|ann v k ann' v' k' Hi He Hk IH|lc k k' HL Hk IH|ann v k ann' v' k' He Hk IH|n n' k k' Hk IH|k k' Hk IH];
      intros ran s s' a0 E; cbn [lay] in *.
    - injection E as <- <-. split; reflexivity.
    - destruct (fails_lay ran p HF _ _ _ E).
    - discriminate E.
    - destruct (value_of ran fzero v) as [x|]; [|discriminate E].
      assert (X : l_inputs (fst (lay_wire s x)) = l_inputs s /\ l_values (fst (lay_wire s x)) = l_values s) by (unfold lay_wire; destruct (l_half s); split; reflexivity).
      destruct (lay_wire s x) as [s1 y]. cbn [fst] in X. destruct (IH y ran (HV y) _ _ _ _ E) as (Y1 & Y2). split; [rewrite Y1|rewrite Y2]; apply X.
    - destruct Hi.
    - destruct (forallb _ lc); [|discriminate E]. exact (IH _ _ _ _ E).
    - destruct (value_of ran _ v) as [[[x y] z]|]; [|discriminate E]. exact (IH _ _ _ _ (HV _) (HV _) (HV _) _ _ _ _ E).
    - exact (IH _ _ _ _ E).
    - exact (IH _ _ _ _ E).
  Qed.
End Same.

Section Run.
  Context {F : Field} {q vb} (OL : OpsLaws F q vb).
  Add Ring Fr : (fring OL).
  (** [p] stops at errors and uses only the variables of [V] *)
  Fixpoint tame {A} (V : Var -> Prop) (p : CS F A) : Prop :=
    match p with
    | Ret _ | Panic => True
    | Alloc _ _ k | AllocInput _ _ k => (forall e, fails (k (Err e))) /\ forall x c, V x -> tame V (k (Ok (x, c)))
    | EnforceZero lc k => Forall (fun t => V (fst t)) lc /\ tame V k
    | Multiply _ _ k => (forall e, fails (k (Err e))) /\ forall x y z c, V x -> V y -> V z -> tame V (k (Ok (x, y, z, c)))
    | PushNamespace _ k | PopNamespace k => tame V k
    end.
  Lemma fails_tame {A} V (p : CS F A) : fails p -> tame V p.
  Proof. intro H. induction H; cbn [tame]; auto. Qed.
  Lemma alike_tame {A B} inp V (R : A -> B -> Prop) (p : CS F A) (p' : CS F B) : alike inp V R p p' -> tame V p.
  Proof. intro H. induction H; cbn [tame]; auto using fails_tame. Qed.
  Lemma fails_exec {A} (p : CS F A) : fails p -> exists e, Exec p [] (Some (Err e)).
  Proof. intro H. induction H as [e|s k H [e IH]|k H [e IH]]; exists e; constructor; exact IH. Qed.

  Definition val (s : layout F) : assignment F := wires (l_a s) (l_b s) (l_c s).
  (** the variables whose values are final *)
  Definition stable (s : layout F) (x : Var) : Prop :=
    match x with VA i => 1 <= i <= l_gates s | VB i | VC i => 1 <= i <= l_gates s /\ l_half s <> Some i end.
  Definition agrees (w : assignment F) (s : layout F) : Prop := forall x, stable s x -> w x = val s x.
  Definition sat (w : assignment F) (s : layout F) : Prop :=
    (forall i, 1 <= i <= l_gates s -> l_half s <> Some i -> fmul (w (VA i)) (w (VB i)) = w (VC i)) /\
    (forall n lc, nth_error (l_lcs s) (n - 1) = Some lc -> 1 <= n -> lc_val w lc = input_at (l_inputs s) (l_values s) n).
  Definition grows (s s' : layout F) : Prop := forall x, stable s x -> stable s' x /\ val s' x = val s x.
  Lemma grows_refl s : grows s s. Proof. intros x H. auto. Qed.
  Lemma grows_trans s t u : grows s t -> grows t u -> grows s u.
  Proof. intros H1 H2 x H. destruct (H1 x H) as (H3 & H4). destruct (H2 x H3) as (H5 & H6). split; [exact H5|congruence]. Qed.
  Lemma grows_agrees w s s' : grows s s' -> agrees w s' -> agrees w s.
  Proof. intros H HA x Hx. destruct (H x Hx) as (H1 & H2). rewrite (HA x H1). exact H2. Qed.

  Lemma wire_app_l (l m : list F) i : 1 <= i <= length l -> wire (l ++ m) i = wire l i.
  Proof. intro H. unfold wire. apply app_nth1. lia. Qed.
  Lemma wire_app_last (l : list F) x n : length l = n -> wire (l ++ [x]) (S n) = x.
  Proof. intros <-. unfold wire. rewrite Nat.sub_succ, Nat.sub_0_r, app_nth2 by lia. rewrite Nat.sub_diag. reflexivity. Qed.
  Lemma wire_put_same i x (l : list F) : 1 <= i <= length l -> wire (put i x l) i = x.
  Proof.
    intro H. unfold wire, put. rewrite app_nth2; rewrite firstn_length, Nat.min_l by lia; [|lia]. rewrite Nat.sub_diag. reflexivity.
  Qed.
  Lemma wire_put_other i j x (l : list F) : 1 <= i <= length l -> 1 <= j -> i <> j -> wire (put i x l) j = wire l j.
  Proof.
    intros H Hj N. unfold wire, put. destruct (Nat.lt_ge_cases (j - 1) (i - 1)) as [L|L].
    - rewrite app_nth1 by (rewrite firstn_length; lia). rewrite <- (firstn_skipn (i - 1) l) at 2. rewrite app_nth1 by (rewrite firstn_length; lia). reflexivity.
    - rewrite app_nth2 by (rewrite firstn_length; lia). rewrite firstn_length, Nat.min_l by lia.
      rewrite <- (firstn_skipn i l) at 2. rewrite app_nth2 by (rewrite firstn_length; lia). rewrite firstn_length, Nat.min_l by lia.
      replace (j - 1 - (i - 1)) with (S (j - 1 - i)) by lia. reflexivity.
  Qed.

  (** a wire *)
  Lemma wire_grows s v : lay_ok s -> grows s (fst (lay_wire s v)) /\ stable (fst (lay_wire s v)) (snd (lay_wire s v)) /\ val (fst (lay_wire s v)) (snd (lay_wire s v)) = v.
  Proof.
    intro OK. pose proof (lo_half s OK) as HH. pose proof (lo_a s OK) as LA. pose proof (lo_b s OK) as LB. pose proof (lo_c s OK) as LC.
    unfold lay_wire. destruct (l_half s) as [h|] eqn:Eh; cbn [fst snd].
    - specialize (HH h eq_refl). split; [|split].
      + intros [i|i|i] H; cbn [stable l_gates l_half val wires l_a l_b l_c] in *; rewrite ?Eh in H.
        * split; [exact H|reflexivity].
        * destruct H as (H & N). split; [split; [exact H|discriminate]|]. apply wire_put_other; [rewrite LB; exact HH|lia|congruence].
        * destruct H as (H & N). split; [split; [exact H|discriminate]|]. apply wire_put_other; [rewrite LC; exact HH|lia|congruence].
      + cbn [stable l_gates l_half]. split; [exact HH|discriminate].
      + cbn [val wires l_b]. apply wire_put_same. rewrite LB. exact HH.
    - split; [|split].
      + intros [i|i|i] H; cbn [stable l_gates l_half val wires l_a l_b l_c] in *; rewrite ?Eh in H.
        * split; [lia|]. apply wire_app_l. lia.
        * destruct H as (H & _). split; [split; [lia|]; intro E; injection E as E; lia|]. apply wire_app_l. lia.
        * destruct H as (H & _). split; [split; [lia|]; intro E; injection E as E; lia|]. apply wire_app_l. lia.
      + cbn [stable l_gates]. lia.
      + cbn [val wires l_a]. apply wire_app_last, LA.
  Qed.
  Lemma wire_sat w s v : lay_ok s -> agrees w (fst (lay_wire s v)) -> sat w s -> sat w (fst (lay_wire s v)).
  Proof.
    intros OK HA (HG & HL). pose proof (lo_half s OK) as HH. pose proof (lo_a s OK) as LA. pose proof (lo_b s OK) as LB. pose proof (lo_c s OK) as LC.
    unfold lay_wire in *. destruct (l_half s) as [h|] eqn:Eh; cbn [fst] in *.
    - specialize (HH h eq_refl). split; [|exact HL]. cbn [l_gates l_half]. intros i Hi _. destruct (Nat.eq_dec i h) as [->|N]; [|apply HG; congruence].
      rewrite (HA (VA h)) by (cbn [stable l_gates]; exact HH). rewrite (HA (VB h)) by (cbn [stable l_gates l_half]; split; [exact HH|discriminate]).
      rewrite (HA (VC h)) by (cbn [stable l_gates l_half]; split; [exact HH|discriminate]). cbn [val wires l_a l_b l_c].
      rewrite !wire_put_same; [reflexivity|rewrite LC; exact HH|rewrite LB; exact HH].
    - split; [|exact HL]. cbn [l_gates l_half]. intros i Hi N. apply HG; [|discriminate]. destruct (Nat.eq_dec i (S (l_gates s))); [congruence|lia].
  Qed.
  (** a linear constraint *)
  Lemma lc_grows s lc : grows s (lay_lc s lc). Proof. intros x H. split; [exact H|reflexivity]. Qed.
  Lemma input_at_out ps vs n : Forall (fun p => p < n) ps -> @input_at F ps vs n = fzero.
  Proof.
    intro H. revert vs. induction H as [|p ps H HF IH]; intros [|v vs]; try reflexivity. cbn [input_at]. destruct (Nat.eqb_spec p n); [lia|]. apply IH.
  Qed.
  Lemma input_at_snoc ps (vs : list F) p v n : length vs = length ps -> Forall (fun j => j < p) ps -> input_at (ps ++ [p]) (vs ++ [v]) n = if p =? n then v else input_at ps vs n.
  Proof.
    revert vs. induction ps as [|p0 ps IH]; intros [|v0 vs] E H; try discriminate E; cbn [app input_at].
    - destruct (p =? n); reflexivity.
    - inversion H as [|? ? H1 H2]; subst. destruct (Nat.eqb_spec p0 n) as [->|N].
      + destruct (Nat.eqb_spec p n); [lia|reflexivity].
      + apply IH; [injection E as E; exact E|exact H2].
  Qed.
  Lemma range_lt (s : layout F) : lay_ok s -> Forall (fun p => p < S (length (l_lcs s))) (l_inputs s).
  Proof. intro H. generalize (lo_range s H). apply Forall_impl. intros p. lia. Qed.
  Lemma lc_sat w s lc : lay_ok s -> lc_val w lc = fzero -> sat w s -> sat w (lay_lc s lc).
  Proof.
    intros OK HL (H1 & H2). split; [exact H1|]. cbn [lay_lc l_lcs l_inputs l_values]. intros n lc0 E Hn.
    destruct (Nat.lt_ge_cases (n - 1) (length (l_lcs s))) as [L|L].
    - rewrite nth_error_app1 in E by exact L. apply H2; assumption.
    - rewrite nth_error_app2 in E by exact L. destruct (n - 1 - length (l_lcs s)) as [|m] eqn:Em; [|destruct m; discriminate E]. injection E as <-.
      replace n with (S (length (l_lcs s))) by lia. rewrite input_at_out by (apply range_lt, OK). exact HL.
  Qed.
  (** a public input *)
  Lemma input_grows s v : lay_ok s -> grows s (fst (lay_input s v)) /\ stable (fst (lay_input s v)) (snd (lay_input s v)) /\ val (fst (lay_input s v)) (snd (lay_input s v)) = v.
  Proof.
    intro OK. destruct (wire_grows s v OK) as (H1 & H2 & H3). rewrite lay_input_split. cbv zeta. cbn [fst snd]. split; [|split; [exact H2|exact H3]].
    intros x Hx. exact (H1 x Hx).
  Qed.
  Lemma input_sat w s v : lay_ok s -> agrees w (fst (lay_input s v)) -> sat w s -> sat w (fst (lay_input s v)).
  Proof.
    intros OK HA HS. destruct (input_grows s v OK) as (_ & H2 & H3). pose proof (HA _ H2) as HX. rewrite H3 in HX. clear H2 H3.
    rewrite lay_input_split in *. cbv zeta in *. cbn [fst snd] in *.
    destruct (ok_wire s v OK) as (OK1 & _). assert (HA1 : agrees w (fst (lay_wire s v))) by (intros x Hx; exact (HA x Hx)).
    destruct (wire_sat w s v OK HA1 HS) as (G1 & G2). set (s1 := fst (lay_wire s v)) in *. set (x := snd (lay_wire s v)) in *.
    split; [exact G1|]. cbn [lay_lc l_lcs l_inputs l_values]. rewrite app_length. cbn [length]. rewrite Nat.add_1_r. intros n lc0 E Hn.
    rewrite input_at_snoc by (try apply range_lt; try exact (lo_values s1 OK1); exact OK1).
    destruct (Nat.lt_ge_cases (n - 1) (length (l_lcs s1))) as [L|L].
    - rewrite nth_error_app1 in E by exact L. destruct (Nat.eqb_spec (S (length (l_lcs s1))) n); [lia|]. apply G2; assumption.
    - rewrite nth_error_app2 in E by exact L. destruct (n - 1 - length (l_lcs s1)) as [|m] eqn:Em; [|destruct m; discriminate E]. injection E as <-.
      destruct (Nat.eqb_spec (S (length (l_lcs s1))) n); [|lia]. cbn [lc_val coeff_val]. rewrite HX. ring.
  Qed.
  (** a gate *)
  Lemma gate_grows s a b c : lay_ok s -> let s' := lay_gate s a b c in let i := l_gates s' in
    grows s s' /\ (stable s' (VA i) /\ stable s' (VB i) /\ stable s' (VC i)) /\ val s' (VA i) = a /\ val s' (VB i) = b /\ val s' (VC i) = c.
  Proof.
    intro OK. pose proof (lo_half s OK) as HH. pose proof (lo_a s OK) as LA. pose proof (lo_b s OK) as LB. pose proof (lo_c s OK) as LC.
    cbv zeta. split; [|split].
    - intros [i|i|i] H; cbn [lay_gate stable l_gates l_half val wires l_a l_b l_c] in *.
      + split; [lia|apply wire_app_l; lia].
      + destruct H as (H & N). split; [split; [lia|exact N]|apply wire_app_l; lia].
      + destruct H as (H & N). split; [split; [lia|exact N]|apply wire_app_l; lia].
    - cbn [lay_gate stable l_gates l_half]. assert (N : l_half s <> Some (S (l_gates s))) by (intro E; specialize (HH _ E); lia).
      repeat split; try lia; assumption.
    - cbn [lay_gate val wires l_gates l_a l_b l_c]. rewrite !wire_app_last by assumption. repeat split.
  Qed.
  Lemma gate_sat w s a b c : let i := S (l_gates s) in fmul (w (VA i)) (w (VB i)) = w (VC i) -> sat w s -> sat w (lay_gate s a b c).
  Proof.
    cbv zeta. intros HM (H1 & H2). split; [|exact H2]. cbn [lay_gate l_gates l_half]. intros i Hi N.
    destruct (Nat.eq_dec i (S (l_gates s))) as [->|]; [exact HM|]. apply H1; [lia|exact N].
  Qed.

  (** The prover's run of a circuit that stops at errors and uses only its variables *)
  Lemma run_exec {A} (p : CS F A) : forall s, lay_ok s -> (forall V : Var -> Prop, (forall x, stable s x -> V x) -> tame V p) ->
    exists s' r tr, Exec p tr r /\ lay_ok s' /\ grows s s' /\ (forall a, r = Some (Ok a) -> lay true p s = Some (s', Ok a)) /\
      forall w, agrees w s' -> witnessed w tr /\ (constraints_hold w tr -> sat w s -> sat w s').
  Proof.
    assert (HE : forall (p : CS F A) (k : res A -> CS F A) s ev, lay_ok s -> (forall w, recorded w ev) -> (exists e, Exec p [ev] (Some (Err e))) ->
      exists s' r tr, Exec p tr r /\ lay_ok s' /\ grows s s' /\ (forall a, r = Some (Ok a) -> lay true p s = Some (s', Ok a)) /\
      forall w, agrees w s' -> witnessed w tr /\ (constraints_hold w tr -> sat w s -> sat w s')).
    { intros p0 _ s ev OK Hr (e & HX). exists s, (Some (Err e)), [ev]. split; [exact HX|]. split; [exact OK|]. split; [apply grows_refl|]. split; [discriminate|].
      intros w _. split; [constructor; [apply Hr|constructor]|auto]. }
    induction p as [a0| |ann v k IH|ann v k IH|lc k IH|ann v k IH|n k IH|k IH]; intros s OK HT.
    - exists s, (Some a0), []. split; [constructor|]. split; [exact OK|]. split; [apply grows_refl|]. split; [intros a E; injection E as ->; reflexivity|].
      intros w _. split; [constructor|auto].
    - exists s, None, []. split; [constructor|]. split; [exact OK|]. split; [apply grows_refl|]. split; [discriminate|]. intros w _. split; [constructor|auto].
    - destruct v as [v|e].
      + destruct (wire_grows s v OK) as (G & SX & VX). destruct (ok_wire s v OK) as (OK1 & _). pose proof (fun w => wire_sat w s v OK) as WS.
        cbn [lay value_of]. destruct (lay_wire s v) as [s1 x]. cbn [fst snd] in *.
        destruct (IH (Ok (x, true)) s1 OK1) as (s' & r & tr & HX & OK' & G' & HL & HW).
        { intros V HV. apply (HT V); [|apply HV, SX]. intros y Hy. apply HV. exact (proj1 (G y Hy)). }
        exists s', r, (EvAlloc x (Some v) :: tr). split; [apply ExAlloc_run, HX|]. split; [exact OK'|]. split; [exact (grows_trans _ _ _ G G')|]. split; [exact HL|].
        intros w HA. destruct (HW w HA) as (W1 & W2). pose proof (grows_agrees _ _ _ G' HA) as HA1. split.
        * constructor; [|exact W1]. cbn [recorded]. rewrite (HA1 x SX). exact VX.
        * intros HC HS. inversion HC; subst. apply W2; [assumption|]. apply WS; assumption.
      + apply (HE _ (fun _ => Panic) s (EvErr e) OK); [intro w; exact I|]. destruct (HT (fun _ => True) (fun _ _ => I)) as (Hf & _).
        destruct (fails_exec _ (Hf e)) as (e' & X). exists e'. apply ExAlloc_err, X.
    - destruct v as [v|e].
      + destruct (input_grows s v OK) as (G & SX & VX). pose proof (ok_input s v OK) as OK1. pose proof (fun w => input_sat w s v OK) as WS.
        cbn [lay value_of]. destruct (lay_input s v) as [s1 x]. cbn [fst snd] in *.
        destruct (IH (Ok (x, true)) s1 OK1) as (s' & r & tr & HX & OK' & G' & HL & HW).
        { intros V HV. apply (HT V); [|apply HV, SX]. intros y Hy. apply HV. exact (proj1 (G y Hy)). }
        exists s', r, (EvInput x (Some v) :: tr). split; [apply ExInput_run, HX|]. split; [exact OK'|]. split; [exact (grows_trans _ _ _ G G')|]. split; [exact HL|].
        intros w HA. destruct (HW w HA) as (W1 & W2). pose proof (grows_agrees _ _ _ G' HA) as HA1. split.
        * constructor; [|exact W1]. cbn [recorded]. rewrite (HA1 x SX). exact VX.
        * intros HC HS. inversion HC; subst. apply W2; [assumption|]. apply WS; assumption.
      + apply (HE _ (fun _ => Panic) s (EvErr e) OK); [intro w; exact I|]. destruct (HT (fun _ => True) (fun _ _ => I)) as (Hf & _).
        destruct (fails_exec _ (Hf e)) as (e' & X). exists e'. apply ExInput_err, X.
    - assert (HV : Forall (fun t => stable s (fst t)) lc) by (exact (proj1 (HT (stable s) (fun _ H => H)))).
      assert (HWi : Forall (fun t => within (l_gates s) (fst t) = true) lc).
      { revert HV. apply Forall_impl. intros [[i|i|i] c] H; apply within_iff; cbn [fst stable] in *; tauto. }
      destruct (IH (lay_lc s lc) (ok_lc s lc OK HWi)) as (s' & r & tr & HX & OK' & G' & HL & HW).
      { intros V HV'. exact (proj2 (HT V HV')). }
      exists s', r, (EvLC lc :: tr). split; [apply ExLC, HX|]. split; [exact OK'|]. split; [exact (grows_trans _ _ _ (lc_grows s lc) G')|]. split.
      + intros a Ea. cbn [lay]. rewrite (proj2 (forallb_forall _ lc)) by (rewrite Forall_forall in HWi; exact HWi). apply HL, Ea.
      + intros w HA. destruct (HW w HA) as (W1 & W2). split; [constructor; [exact I|exact W1]|]. intros HC HS. inversion HC; subst. apply W2; [assumption|]. apply lc_sat; assumption.
    - destruct v as [[[x y] z]|e].
      + destruct (gate_grows s x y z OK) as (G & (S1 & S2 & S3) & V1 & V2 & V3). pose proof (ok_gate s x y z OK) as OK1.
        cbn [lay value_of]. cbv zeta. set (s1 := lay_gate s x y z) in *. set (i := l_gates s1) in *.
        destruct (IH (Ok (VA i, VB i, VC i, true)) s1 OK1) as (s' & r & tr & HX & OK' & G' & HL & HW).
        { intros V HV. apply (HT V); try (apply HV; assumption). intros y0 Hy. apply HV. exact (proj1 (G y0 Hy)). }
        exists s', r, (EvMul (VA i) (VB i) (VC i) (Some (x, y, z)) :: tr). split; [apply ExMul_run, HX|]. split; [exact OK'|]. split; [exact (grows_trans _ _ _ G G')|]. split; [exact HL|].
        intros w HA. destruct (HW w HA) as (W1 & W2). pose proof (grows_agrees _ _ _ G' HA) as HA1. split.
        * constructor; [|exact W1]. cbn [recorded]. rewrite (HA1 _ S1), (HA1 _ S2), (HA1 _ S3). auto.
        * intros HC HS. apply W2; [exact (Forall_inv_tail HC)|]. apply gate_sat; [exact (Forall_inv HC)|exact HS].
      + apply (HE _ (fun _ => Panic) s (EvErr e) OK); [intro w; exact I|]. destruct (HT (fun _ => True) (fun _ _ => I)) as (Hf & _).
        destruct (fails_exec _ (Hf e)) as (e' & X). exists e'. apply ExMul_err, X.
    - destruct (IH s OK HT) as (s' & r & tr & HX & H). exists s', r, tr. split; [apply ExPush, HX|exact H].
    - destruct (IH s OK HT) as (s' & r & tr & HX & H). exists s', r, tr. split; [apply ExPop, HX|exact H].
  Qed.

  (** the free wire of the last gate is 0 *)
  Definition half_zero (s : layout F) : Prop := forall i, l_half s = Some i -> wire (l_b s) i = fzero /\ wire (l_c s) i = fzero.
  Lemma half_zero_run {A} ran (p : Prog F A) s s' a : lay_ok s -> half_zero s -> lay ran p s = Some (s', a) -> half_zero s'.
  Proof.
    intros OK HZ H. refine (proj2 (lay_inv (fun s => lay_ok s /\ half_zero s) _ _ _ _ ran p s s' a (conj OK HZ) H)).
    - intros t v (O & Z). split; [apply ok_wire, O|]. intros i. unfold lay_wire. destruct (l_half t) eqn:E; cbn [fst l_half l_b l_c]; [discriminate|].
      intro X. injection X as <-. rewrite !wire_app_last by apply O. split; reflexivity.
    - intros t v (O & Z). split; [apply ok_input, O|]. intros i. rewrite lay_input_split. cbn [fst lay_lc l_half l_b l_c]. unfold lay_wire. destruct (l_half t) eqn:E; cbn [fst l_half l_b l_c]; [discriminate|].
      intro X. injection X as <-. rewrite !wire_app_last by apply O. split; reflexivity.
    - intros t lc (O & Z) HL. split; [apply ok_lc; assumption|exact Z].
    - intros t x y z (O & Z). split; [apply ok_gate, O|]. intros i E. cbn [lay_gate l_half l_b l_c] in *. pose proof (lo_half t O i E) as R.
      rewrite !wire_app_l by (rewrite ?(lo_b t O), ?(lo_c t O); exact R). apply Z, E.
  Qed.
  (** If the circuit is complete for every assignment with the constant one, its
      prover's run satisfies the system. *)
  Theorem complete_lays_out (circuit : Var -> CS F unit) :
    (forall V : Var -> Prop, V (VA 1) -> tame V (circuit (VA 1))) ->
    (forall w, w (VA 1) = fone -> complete w (circuit (VA 1)) (fun _ => True)) ->
    exists s, laid_out true circuit s /\ satisfied s.
  Proof.
    intros HT HC. destruct (run_exec (circuit (VA 1)) (layout0 true) (ok_layout0 true)) as (s & r & tr & HX & OK & G & HL & HW).
    { intros V HV. apply HT, HV. cbn. lia. }
    assert (H1 : val s (VA 1) = fone). { destruct (G (VA 1)) as (_ & E); [cbn; lia|]. rewrite E. reflexivity. }
    destruct (HW (val s)) as (W1 & W2); [intros x _; reflexivity|].
    destruct (HC (val s) H1 tr r HX W1) as ([] & -> & HC1 & _). specialize (HL tt eq_refl). exists s. split; [exact HL|].
    destruct W2 as (S1 & S2); [exact HC1| |].
    { split.
      - cbn [layout0 l_gates l_half]. intros i Hi N. destruct (Nat.eq_dec i 1); [congruence|lia].
      - cbn [layout0 l_lcs l_inputs l_values]. intros n lc E Hn. destruct (n - 1) as [|m] eqn:En; [|destruct m; discriminate E].
        replace n with 1 by lia. injection E as <-. cbn [input_at Nat.eqb lc_val coeff_val]. rewrite H1. ring. }
    split; [|exact S2]. intros i Hi. assert (HZ0 : half_zero (layout0 (F := F) true)).
    { intros j E. injection E as <-. split; reflexivity. }
    destruct (l_half s) as [h|] eqn:Eh; [destruct (Nat.eq_dec i h) as [->|N]|].
    - destruct (half_zero_run true _ _ _ _ (ok_layout0 true) HZ0 HL h Eh) as (E1 & E2). rewrite E1, E2. ring.
    - apply (S1 i Hi). congruence.
    - apply (S1 i Hi). congruence.
  Qed.
End Run.
