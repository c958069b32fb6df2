(** dev.rs: the verdict of is_satisfied. *)
From Coq Require Import String List Bool Arith Lia ZArith Ring Field.
From Verif Require Import Model.FieldTrait Model.Circuits Model.Synthesis Model.Dev Spec.FieldLaws
  Spec.CircuitSpec Spec.ExprSpec Spec.DriverSpec Spec.DevSpec Proofs.FieldGen Proofs.LcP
  Proofs.ExprP Proofs.DriverP Proofs.DevP.
Import ListNotations.
Open Scope nat_scope.
Open Scope list_scope.

Section IsSat.
  Context {F : Field} {p : Z} {v : F -> Z} (FL : FieldLaws F p v).
  Let OL : OpsLaws F p v := fl_ops _ _ _ FL.
  Add Field Ff : (ffield OL).
  Let B := assignment_backend F.
  Implicit Types (w : assignment F) (t : list (event F)).

  (** the constants expected of the constraints of a trace *)
  Fixpoint expect t (ins : list F) : list F :=
    match t with
    | [] => []
    | EvLC _ :: t => fzero :: expect t ins
    | EvInput _ _ :: t =>
        match ins with [] => fzero :: expect t [] | x :: ins => x :: expect t ins end
    | _ :: t => expect t ins
    end.

  Lemma input_positions_length n t : length (input_positions n t) = length (input_vars t).
  Proof. revert n. induction t as [|[] t IH]; intro n; simpl; auto. Qed.

  Lemma vec_get_mid {A} (pre : list A) x l : vec_get (pre ++ x :: l) (S (length pre)) = Some x.
  Proof. unfold vec_get. rewrite nth_error_app2 by lia. rewrite Nat.sub_diag. reflexivity. Qed.
  Lemma vec_set_mid {A} (pre : list A) x y l :
    vec_set (pre ++ x :: l) (S (length pre)) y = Some (pre ++ y :: l).
  Proof.
    destruct (vec_set_some (pre ++ x :: l) (S (length pre)) y) as [l' E].
    { rewrite app_length. simpl. lia. }
    rewrite E. apply vec_set_split in E. destruct E as (l1 & z & l2 & E & El & ->).
    injection El as El. apply app_inv_length_eq in E || idtac.
    assert (H : l1 = pre /\ z :: l2 = x :: l).
    { revert pre El E. induction l1 as [|u l1 IH]; intros [|u' pre] El E; simpl in *; try discriminate; auto.
      injection E as -> E. injection El as El. destruct (IH pre El E) as [-> H]. auto. }
    destruct H as [-> H]. injection H as -> ->. reflexivity.
  Qed.

  Lemma set_inputs_spec t : forall pre suf ins,
    map (@lc_part F) suf = trace_lcs t -> Forall (fun e => k_part e = fzero) suf ->
    length ins = length (input_vars t) ->
    exists suf', set_inputs (pre ++ suf) (combine ins (input_positions (length pre) t)) = Some (pre ++ suf') /\
      map (@lc_part F) suf' = trace_lcs t /\ map (@k_part F) suf' = expect t ins.
  Proof.
    induction t as [|ev t IH]; intros pre suf ins Hl Hk Hn.
    - destruct suf; [|discriminate Hl]. simpl. rewrite combine_nil. exists []. auto.
    - destruct ev; simpl in *; try (apply IH; assumption).
      + destruct suf as [|[[l k] pth] suf]; [discriminate Hl|]. injection Hl as Hl0 Hl.
        destruct ins as [|i ins]; [discriminate Hn|]. inversion Hk; subst. cbn [combine set_inputs].
        rewrite vec_get_mid. cbn [obind]. rewrite vec_set_mid. cbn [obind].
        destruct (IH (pre ++ [(l, i, pth)]) suf ins Hl H2) as (suf' & E1 & E2 & E3); [injection Hn; auto|].
        rewrite app_length in E1. simpl in E1. rewrite Nat.add_1_r, <- !app_assoc in E1.
        exists ((l, i, pth) :: suf'). simpl in *. rewrite E1, E2, E3. unfold lc_part in *. simpl in Hl0.
        split; [reflexivity|]. split; [simpl; rewrite Hl0; reflexivity|reflexivity].
      + destruct suf as [|[[l k] pth] suf]; [discriminate Hl|]. injection Hl as Hl0 Hl. inversion Hk; subst.
        destruct (IH (pre ++ [(l, k, pth)]) suf ins Hl H2 Hn) as (suf' & E1 & E2 & E3).
        rewrite app_length in E1. simpl in E1. rewrite Nat.add_1_r, <- !app_assoc in E1.
        exists ((l, k, pth) :: suf'). simpl in *. rewrite E1, E2, E3. unfold lc_part, k_part in *. simpl in *.
        split; [reflexivity|]. split; congruence.
  Qed.

  (** check_gates *)
  Lemma check_gates_spec : forall (a b c : list F) m n, length a = n -> length b = n -> length c = n -> length m = n ->
    exists e, check_gates a b c m = Some e /\
    match e with
    | None => forall i, i < n -> fmul (nth i a fzero) (nth i b fzero) = nth i c fzero
    | Some err => exists pth i, i < n /\
        err = MultiplicationErr pth (nth i a fzero) (nth i b fzero) (nth i c fzero) /\
        fmul (nth i a fzero) (nth i b fzero) <> nth i c fzero
    end.
  Proof.
    induction a as [|x a IH]; intros [|y b] [|z c] [|k m] [|n] Ha Hb Hc Hm; try discriminate.
    - exists None. split; [reflexivity|]. intros i Hi. lia.
    - simpl in *. destruct (feqb (fmul x y) z) eqn:E; simpl.
      + destruct (IH b c m n) as (e & E1 & E2); try lia. exists e. split; [exact E1|].
        destruct e as [err|].
        * destruct E2 as (pth & i & Hi & E2). exists pth, (S i). split; [lia|exact E2].
        * intros [|i] Hi; [apply (feqb_eq OL); exact E|apply E2; lia].
      + eexists. split; [reflexivity|]. eexists _, 0. split; [lia|]. split; [reflexivity|].
        simpl. intro H. apply (feqb_eq OL) in H. congruence.
  Qed.

  (** check_lcs *)
  Lemma check_lcs_spec (a b c : list F) : forall lcs e, check_lcs a b c lcs = Some e ->
    match e with
    | None => Forall (fun q => lc_val (of_vectors a b c) (lc_part q) = k_part q) lcs
    | Some err => exists pth q, In q lcs /\
        err = LinearErr pth (lc_val (of_vectors a b c) (lc_part q)) (k_part q) /\
        lc_val (of_vectors a b c) (lc_part q) <> k_part q
    end.
  Proof.
    induction lcs as [|[[lc k] pth] lcs IH]; intros e H; simpl in H.
    - injection H as <-. constructor.
    - oinva H as lhs. assert (Hl : lhs = lc_val (of_vectors a b c) lc).
      { destruct (lc_evaluate_val FL a b c lc) as [E1 E2].
        destruct (Forall_dec _ (in_vectors_dec a b c) (map fst lc)) as [D|D];
          [rewrite (E1 D) in E; congruence|rewrite (E2 D) in E; congruence]. }
      destruct (feqb lhs k) eqn:Ek; simpl in H.
      + apply IH in H. apply (feqb_eq OL) in Ek. destruct e as [err|].
        * destruct H as (pth' & q & Hq & H). exists pth', q. simpl. auto.
        * constructor; [unfold lc_part, k_part; cbn [fst snd]; rewrite <- Hl; exact Ek|exact H].
      + injection H as <-. exists pth, (lc, k, pth). simpl. split; [auto|]. unfold lc_part, k_part. simpl.
        split; [congruence|]. intro. assert (feqb lhs k = true) by (apply (feqb_eq OL); congruence). congruence.
  Qed.

  Definition lcs_hold w t : Prop := forall lc, In (EvLC lc) t -> lc_val w lc = fzero.

  Lemma constraints_split w t : constraints_hold w t <-> gates_hold w t /\ lcs_hold w t.
  Proof.
    unfold constraints_hold, gates_hold, lcs_hold. rewrite Forall_forall. split.
    - intro H. split; intros; apply (H _ H0).
    - intros [H1 H2] [] Hx; simpl; eauto.
  Qed.

  Lemma expect_all w t : forall (lcs : list (LC F * F * string)) ins, length ins = length (input_vars t) ->
    map (@lc_part F) lcs = trace_lcs t -> map (@k_part F) lcs = expect t ins ->
    (Forall (fun q => lc_val w (lc_part q) = k_part q) lcs <-> lcs_hold w t /\ map w (input_vars t) = ins).
  Proof.
    unfold lcs_hold. induction t as [|ev t IH]; intros lcs ins Hn Hl Hk.
    - destruct lcs; [|discriminate Hl]. destruct ins; [|discriminate Hn]. simpl. split; [|constructor].
      split; [intros ? []|reflexivity].
    - destruct ev; simpl in *;
        try (rewrite (IH lcs ins Hn Hl Hk); split; intros [H1 H2]; (split; [|exact H2]); intros; apply H1;
             [destruct H; [discriminate H|exact H]|auto]).
      + destruct ins as [|i ins]; [discriminate Hn|]. destruct lcs as [|q lcs]; [discriminate Hl|].
        simpl in *. injection Hl as Hq Hl. injection Hk as Hq' Hk.
        rewrite Forall_cons_iff, (IH lcs ins (eq_add_S _ _ Hn) Hl Hk), Hq, Hq'. simpl.
        split.
        * intros (H0 & H1 & H2). split; [intros lc [E|E]; [discriminate E|auto]|].
          f_equal; [|exact H2]. rewrite <- H0. ring.
        * intros (H1 & H2). injection H2 as H0 H2. repeat split; auto. rewrite H0. ring.
      + destruct lcs as [|q lcs]; [discriminate Hl|].
        simpl in *. injection Hl as Hq Hl. injection Hk as Hq' Hk.
        rewrite Forall_cons_iff, (IH lcs ins Hn Hl Hk), Hq, Hq'.
        split.
        * intros (H0 & H1 & H2). split; [intros lc' [E|E]; [congruence|auto]|exact H2].
        * intros (H1 & H2). split; auto.
  Qed.

  Lemma expect_In w t : forall (lcs : list (LC F * F * string)) ins, length ins = length (input_vars t) ->
    map (@lc_part F) lcs = trace_lcs t -> map (@k_part F) lcs = expect t ins ->
    forall q, In q lcs ->
    (exists lc, In (EvLC lc) t /\ lc_val w (lc_part q) = lc_val w lc /\ k_part q = fzero) \/
    (exists i x, nth_error (input_vars t) i = Some x /\ lc_val w (lc_part q) = w x /\ nth_error ins i = Some (k_part q)).
  Proof.
    induction t as [|ev t IH]; intros lcs ins Hn Hl Hk q Hq.
    - destruct lcs; [|discriminate Hl]. destruct Hq.
    - destruct ev; simpl in *;
        try (destruct (IH lcs ins Hn Hl Hk q Hq) as [(lc & H1 & H2)|H]; [left; exists lc; auto|right; exact H]).
      + destruct ins as [|i ins]; [discriminate Hn|]. destruct lcs as [|q0 lcs]; [discriminate Hl|].
        simpl in *. injection Hl as Hq0 Hl. injection Hk as Hq' Hk. destruct Hq as [->|Hq].
        * right. exists 0, x. rewrite Hq0, Hq'. simpl. split; [reflexivity|]. split; [ring|reflexivity].
        * destruct (IH lcs ins (eq_add_S _ _ Hn) Hl Hk q Hq) as [(lc & H1 & H2)|(j & y & H)]; [left; exists lc; auto|].
          right. exists (S j), y. exact H.
      + destruct lcs as [|q0 lcs]; [discriminate Hl|].
        simpl in *. injection Hl as Hq0 Hl. injection Hk as Hq' Hk. destruct Hq as [->|Hq].
        * left. exists lc. rewrite Hq0. auto.
        * destruct (IH lcs ins Hn Hl Hk q Hq) as [(lc' & H1 & H2)|H]; [left; exists lc'; auto|right; exact H].
  Qed.

  Lemma is_satisfied_spec circuit inputs res : @is_satisfied F circuit inputs = Some res ->
    exists tr r w, Exec (circuit (VA 1)) tr (Some r) /\ NoDup (VA 1 :: trace_vars tr) /\
      witnessed w tr /\ w (VA 1) = fone /\ verdict w tr r inputs res.
  Proof.
    intro H. unfold is_satisfied in H. oinva H as [st r].
    destruct (basic_asg FL circuit st r E) as (tr & He & HA).
    pose proof HA as [HG (N0 & N1 & N2 & N3 & N4) (Q1 & Q2) Hf Hp Hr Hg Hl Hk Hi].
    exists tr, r, (wit (backend st)). split; [exact He|].
    split; [exact (g_nodup _ _ _ HG)|].
    unfold witnessed in Hr. apply Forall_cons_iff in Hr. destruct Hr as [Hone Hr].
    split; [exact Hr|]. split; [exact Hone|].
    destruct r as [[]|e].
    2:{ injection H as <-. reflexivity. }
    rewrite Q1, Q2, N0, N1, N2, N3, N4, !Nat.eqb_refl in H. cbn [andb] in H.
    rewrite Hi, input_positions_length in H. cbn [input_vars length] in H.
    destruct (Nat.eqb_spec (length inputs + 1) (S (length (input_vars tr)))) as [El|El]; cbn [negb] in H.
    2:{ injection H as <-. simpl. repeat split; lia. }
    assert (Hlen : length inputs = length (input_vars tr)) by lia.
    cbn [input_positions hd_error obind skipn] in H.
    destruct (set_inputs_spec (EvInput (VA 1) (Some fone) :: tr) [] (as_lc (backend st)) (fone :: inputs)) as (lcs & E1 & E2 & E3);
      [exact Hl|exact Hk|simpl; lia|].
    cbn [length app combine input_positions] in E1. rewrite E1 in H. cbn [obind] in H.
    destruct (check_gates_spec _ _ _ _ _ N1 N2 N3 N4) as (e & C1 & C2).
    rewrite C1 in H. cbn [obind] in H.
    assert (HW : forall i, wit (backend st) (VA (S i)) = nth i (as_a (backend st)) fzero /\
                           wit (backend st) (VB (S i)) = nth i (as_b (backend st)) fzero /\
                           wit (backend st) (VC (S i)) = nth i (as_c (backend st)) fzero).
    { intro i. unfold wit, of_vectors. cbn. rewrite Nat.sub_0_r. auto. }
    destruct e as [err|].
    - injection H as <-. destruct C2 as (pth & i & Hi1 & -> & Hbad). simpl.
      split; [reflexivity|]. split; [exact Hlen|].
      destruct (HW i) as (W1 & W2 & W3).
      destruct (Hg (S i)) as [Hg1|[o Ho]]; [lia|exfalso; apply Hbad; congruence|].
      destruct Ho as [Ho|Ho]; [discriminate Ho|].
      exists (VA (S i)), (VB (S i)), (VC (S i)), o. rewrite W1, W2, W3. auto.
    - assert (Hgates : gates_hold (wit (backend st)) tr).
      { intros a b c o Hin. pose proof (g_shape _ _ _ HG) as Hs. rewrite Forall_forall in Hs.
        destruct (Hs _ (or_intror Hin)) as (i & -> & -> & ->).
        pose proof (used_index st (VA i) _ HG) as Hu.
        assert (1 <= i <= sn st).
        { apply Hu. unfold trace_vars. apply in_flat_map. exists (EvMul (VA i) (VB i) (VC i) o). simpl. auto. }
        destruct i as [|i]; [lia|]. destruct (HW i) as (W1 & W2 & W3). rewrite W1, W2, W3. apply C2. lia. }
      oinva H as e. apply check_lcs_spec in E0. change (of_vectors _ _ _) with (wit (backend st)) in E0.
      destruct e as [err|]; injection H as <-.
      + destruct E0 as (pth & q & Hq & -> & Hbad). simpl. split; [reflexivity|]. split; [exact Hlen|].
        split; [exact Hgates|]. split; [exact Hbad|].
        destruct (expect_In (wit (backend st)) (EvInput (VA 1) (Some fone) :: tr) lcs (fone :: inputs)
                    ltac:(simpl; lia) E2 E3 q Hq) as [(lc & H1 & H2 & H3)|(i & x & H1 & H2 & H3)].
        * left. exists lc. destruct H1 as [H1|H1]; [discriminate H1|]. auto.
        * right. destruct i as [|i]; simpl in H1, H3.
          -- exfalso. injection H1 as <-. injection H3 as H3. apply Hbad. rewrite H2, <- H3. exact Hone.
          -- exists i, x. auto.
      + apply (expect_all (wit (backend st)) (EvInput (VA 1) (Some fone) :: tr) lcs (fone :: inputs)) in E0;
          [|simpl; lia|exact E2|exact E3].
        destruct E0 as [H1 H2]. simpl. split; [reflexivity|]. split.
        * apply constraints_split. split; [exact Hgates|]. intros lc Hin. apply H1. right. exact Hin.
        * simpl in H2. injection H2 as _ H2. exact H2.
  Qed.
End IsSat.
