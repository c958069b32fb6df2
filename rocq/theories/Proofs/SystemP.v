(** Running the synthesis driver along the reference layout of a circuit. *)
From Coq Require Import ZArith String List Bool Arith Lia Sorting.Sorted Ring Field.
From Verif Require Import Model.FieldTrait Model.Circuits Model.Synthesis Model.Dev Model.Curve Model.Threads Model.Util
  Model.Rescue Model.Params Model.Opening Model.Proofs Spec.CircuitSpec Spec.UtilSpec Spec.SystemSpec Proofs.DriverP Proofs.DevP.
Import ListNotations.
Open Scope nat_scope.
Open Scope list_scope.
Open Scope type_scope.

Section Layout.
  Context {F : Field}.

  Implicit Types (s : layout F) (v : F).
  Record lay_ok (s : layout F) : Prop := {
    lo_a : length (l_a s) = l_gates s; lo_b : length (l_b s) = l_gates s; lo_c : length (l_c s) = l_gates s;
    lo_half : forall i, l_half s = Some i -> 1 <= i <= l_gates s;
    lo_lcs : Forall (fun lc => Forall (fun t => within (l_gates s) (fst t) = true) lc) (l_lcs s);
    lo_sorted : StronglySorted lt (l_inputs s);
    lo_range : Forall (fun p => 1 <= p <= length (l_lcs s)) (l_inputs s);
    lo_values : length (l_values s) = length (l_inputs s) }.

  Lemma put_length i x (l : list F) : 1 <= i <= length l -> length (put i x l) = length l.
  Proof. intro H. unfold put. rewrite app_length. cbn [length]. rewrite firstn_length, skipn_length. lia. Qed.
  Lemma vec_set_put i x (l : list F) : 1 <= i <= length l -> vec_set l i x = Some (put i x l).
  Proof.
    destruct i as [|i]; [lia|]. intro H. unfold vec_set, put. rewrite (proj2 (Nat.ltb_lt _ _)) by lia.
    rewrite Nat.sub_succ, Nat.sub_0_r. reflexivity.
  Qed.
  Lemma vec_get_wire i (l : list F) : 1 <= i <= length l -> vec_get l i = Some (wire l i).
  Proof.
    destruct i as [|i]; [lia|]. intro H. unfold vec_get, wire. rewrite Nat.sub_succ, Nat.sub_0_r.
    destruct (nth_error l i) as [y|] eqn:E; [|apply nth_error_None in E; lia]. f_equal. symmetry. apply nth_error_nth, E.
  Qed.
  Lemma within_iff n x : within n x = true <-> 1 <= (match x with VA i | VB i | VC i => i end) <= n.
  Proof. destruct x as [i|i|i]; cbn [within]; rewrite andb_true_iff, !Nat.leb_le; reflexivity. Qed.
  Lemma within_mono n m x : n <= m -> within n x = true -> within m x = true.
  Proof. rewrite !within_iff. destruct x; lia. Qed.
  Lemma lcs_mono n m (lcs : list (LC F)) : n <= m ->
    Forall (fun lc => Forall (fun t => within n (fst t) = true) lc) lcs -> Forall (fun lc => Forall (fun t => within m (fst t) = true) lc) lcs.
  Proof. intros H. apply Forall_impl. intros lc. apply Forall_impl. intros t. apply within_mono, H. Qed.

  Lemma lay_wire_gates (s : layout F) (v : F) : l_gates s <= l_gates (fst (lay_wire s v)) /\ l_lcs (fst (lay_wire s v)) = l_lcs s /\
    l_inputs (fst (lay_wire s v)) = l_inputs s.
  Proof. unfold lay_wire. destruct (l_half s); cbn; auto. Qed.
  Lemma lay_mono {A} ran (p : Prog F A) : forall s s' a, lay ran p s = Some (s', a) -> l_gates s <= l_gates s'.
  Proof.
    induction p as [a0| |ann v k IH|ann v k IH|lc k IH|ann v k IH|n k IH|k IH]; cbn [lay]; intros s s' a H.
    - injection H as <- <-. reflexivity.
    - discriminate H.
    - destruct (value_of ran fzero v) as [x|]; [|discriminate H]. pose proof (lay_wire_gates s x) as (HG & _).
      destruct (lay_wire s x) as [s1 y]. apply IH in H. cbn [fst] in HG. lia.
    - destruct (value_of ran fzero v) as [x|]; [|discriminate H]. unfold lay_input in H. pose proof (lay_wire_gates s x) as (HG & _).
      destruct (lay_wire s x) as [s1 y]. apply IH in H. cbn [fst l_gates] in *. lia.
    - destruct (forallb _ lc); [|discriminate H]. apply IH in H. exact H.
    - destruct (value_of ran _ v) as [[[x y] z]|]; [|discriminate H]. apply IH in H. cbn [lay_gate l_gates] in H. lia.
    - apply IH in H. exact H.
    - apply IH in H. exact H.
  Qed.

  (** a predicate preserved by the steps *)
  Lemma lay_inv (J : layout F -> Prop) :
    (forall s v, J s -> J (fst (lay_wire s v))) -> (forall s v, J s -> J (fst (lay_input s v))) ->
    (forall s lc, J s -> Forall (fun t => within (l_gates s) (fst t) = true) lc -> J (lay_lc s lc)) ->
    (forall s a b c, J s -> J (lay_gate s a b c)) ->
    forall {A} ran (p : Prog F A) s s' a, J s -> lay ran p s = Some (s', a) -> J s'.
  Proof.
    intros HW HI HL HG A ran p. induction p as [a0| |ann v k IH|ann v k IH|lc k IH|ann v k IH|n k IH|k IH]; cbn [lay]; intros s s' a HJ H.
    - injection H as <- <-. exact HJ.
    - discriminate H.
    - destruct (value_of ran fzero v) as [x|]; [|discriminate H]. specialize (HW s x HJ). destruct (lay_wire s x) as [s1 y]. exact (IH _ _ _ _ HW H).
    - destruct (value_of ran fzero v) as [x|]; [|discriminate H]. specialize (HI s x HJ). destruct (lay_input s x) as [s1 y]. exact (IH _ _ _ _ HI H).
    - destruct (forallb _ lc) eqn:E; [|discriminate H]. rewrite forallb_forall in E. refine (IH _ _ _ (HL s lc HJ _) H). apply Forall_forall. exact E.
    - destruct (value_of ran _ v) as [[[x y] z]|]; [|discriminate H]. exact (IH _ _ _ _ (HG s x y z HJ) H).
    - exact (IH _ _ _ HJ H).
    - exact (IH _ _ _ HJ H).
  Qed.

  Lemma sorted_snoc (l : list nat) n : StronglySorted lt l -> Forall (fun p => p < n) l -> StronglySorted lt (l ++ [n]).
  Proof.
    intros H HF. induction H as [|x l HS IH HX]; cbn [app].
    - constructor; constructor.
    - inversion HF as [|? ? H1 H2]; subst. constructor; [apply IH, H2|]. apply Forall_app. split; [exact HX|]. constructor; [exact H1|constructor].
  Qed.
  Lemma ok_wire s v : lay_ok s -> lay_ok (fst (lay_wire s v)) /\ within (l_gates (fst (lay_wire s v))) (snd (lay_wire s v)) = true.
  Proof.
    intro H. pose proof (lo_half s H) as HH. unfold lay_wire. destruct (l_half s) as [i|].
    - specialize (HH i eq_refl). cbn [fst snd l_gates]. split; [|apply within_iff; exact HH].
      constructor; cbn [l_a l_b l_c l_gates l_half l_lcs l_inputs l_values]; try apply H; try discriminate.
      + rewrite put_length; [apply H|]. rewrite (lo_b s H). exact HH.
      + rewrite put_length; [apply H|]. rewrite (lo_c s H). exact HH.
    - cbn [fst snd l_gates]. split; [|apply within_iff; lia].
      constructor; cbn [l_a l_b l_c l_gates l_half l_lcs l_inputs l_values]; rewrite ?app_length; cbn [length];
        try (rewrite ?(lo_a s H), ?(lo_b s H), ?(lo_c s H); lia); try apply H.
      + intros i E. injection E as <-. lia.
      + apply (lcs_mono (l_gates s)); [lia|apply H].
  Qed.
  Lemma ok_lc s lc : lay_ok s -> Forall (fun t => within (l_gates s) (fst t) = true) lc -> lay_ok (lay_lc s lc).
  Proof.
    intros H HL. constructor; cbn [lay_lc l_a l_b l_c l_gates l_half l_lcs l_inputs l_values]; try apply H.
    - apply Forall_app. split; [apply H|constructor; [exact HL|constructor]].
    - rewrite app_length. cbn [length]. generalize (lo_range s H). apply Forall_impl. intros p. lia.
  Qed.
  Lemma lay_input_split (s : layout F) (v : F) : lay_input s v =
    let s1 := lay_lc (fst (lay_wire s v)) [(snd (lay_wire s v), COne)] in
    (mkLayout (l_half s1) (l_gates s1) (l_lcs s1) (l_inputs s1 ++ [length (l_lcs s1)]) (l_values s1 ++ [v]) (l_a s1) (l_b s1) (l_c s1), snd (lay_wire s v)).
  Proof.
    unfold lay_input. destruct (lay_wire s v) as [s1 x]. cbn [fst snd lay_lc l_half l_gates l_lcs l_inputs l_values l_a l_b l_c].
    rewrite app_length. cbn [length]. rewrite Nat.add_1_r. reflexivity.
  Qed.
  Lemma ok_input s v : lay_ok s -> lay_ok (fst (lay_input s v)).
  Proof.
    intro H. rewrite lay_input_split. cbv zeta. cbn [fst]. destruct (ok_wire s v H) as (H1 & HW).
    assert (H2 : lay_ok (lay_lc (fst (lay_wire s v)) [(snd (lay_wire s v), COne)])).
    { apply ok_lc; [exact H1|]. constructor; [exact HW|constructor]. }
    pose proof (lo_range _ H1) as HR1.
    set (s1 := lay_lc _ _) in *.
    constructor; cbn [l_a l_b l_c l_gates l_half l_lcs l_inputs l_values]; try apply H2.
    - apply sorted_snoc; [apply H2|]. unfold s1 at 2. cbn [lay_lc l_inputs]. revert HR1. apply Forall_impl. intros p HP.
      unfold s1. cbn [lay_lc l_lcs]. rewrite app_length. cbn [length]. lia.
    - apply Forall_app. split; [apply H2|]. constructor; [|constructor]. split; [|lia].
      unfold s1. cbn [lay_lc l_lcs]. rewrite app_length. cbn [length]. lia.
    - rewrite !app_length. rewrite (lo_values _ H2). reflexivity.
  Qed.
  Lemma ok_gate s a b c : lay_ok s -> lay_ok (lay_gate s a b c).
  Proof.
    intro H. constructor; cbn [lay_gate l_a l_b l_c l_gates l_half l_lcs l_inputs l_values]; rewrite ?app_length; cbn [length];
      try (rewrite ?(lo_a s H), ?(lo_b s H), ?(lo_c s H); lia); try apply H.
    - intros i E. pose proof (lo_half s H i E). lia.
    - apply (lcs_mono (l_gates s)); [lia|apply H].
  Qed.
  Lemma ok_layout0 ran : lay_ok (layout0 (F := F) ran).
  Proof.
    constructor; cbn [layout0 l_a l_b l_c l_gates l_half l_lcs l_inputs l_values length]; try reflexivity.
    - intros i E. injection E as <-. lia.
    - repeat constructor.
    - repeat constructor.
    - constructor; [lia|constructor].
  Qed.
  Lemma lay_ok_run {A} ran (p : Prog F A) s s' a : lay_ok s -> lay ran p s = Some (s', a) -> lay_ok s'.
  Proof.
    apply (lay_inv lay_ok).
    - intros t v H. apply ok_wire, H.
    - intros t v H. apply ok_input, H.
    - intros t lc. apply ok_lc.
    - intros t x y z. apply ok_gate.
  Qed.
  Lemma laid_out_ok ran circuit s : laid_out ran circuit s -> lay_ok s /\ 1 <= l_gates s /\ 1 <= length (l_lcs s).
  Proof.
    intro H. unfold laid_out in H. split; [exact (lay_ok_run _ _ _ _ _ (ok_layout0 ran) H)|].
    split; [exact (lay_mono _ _ _ _ _ H)|].
    refine (lay_inv (fun s => 1 <= length (l_lcs s)) _ _ _ _ _ _ _ _ _ _ H); clear; intros; cbn [layout0 lay_gate lay_lc l_lcs length]; rewrite ?app_length; try lia.
    - destruct (lay_wire_gates s v) as (_ & -> & _). exact H.
    - rewrite lay_input_split. cbn [fst lay_lc l_lcs]. rewrite app_length. cbn [length]. lia.
  Qed.
End Layout.

(** ** Backends that never run closures *)
Section Quiet.
  Context {F : Field} (B : Backend F) (N : nat).
  Record Quiet (I : BState B -> nat -> list (LC F) -> list nat -> Prop) : Prop := {
    q_get : forall s x, exists o, b_get_var B s x = Some o;
    q_set : forall s ann x v, b_set_var B s ann x v = Some (s, false, Ok tt);
    q_gate : forall s g l i ann, I s g l i -> exists s', b_new_multiplication_gate B s ann = Some s' /\ I s' (S g) l i;
    q_lc : forall s g l i ann lc, I s g l i -> g <= N -> Forall (fun t => within g (fst t) = true) lc ->
      exists s1 y s', b_new_linear_constraint B s ann = Some (s1, y) /\ insert_all B s1 lc y = Some s' /\ I s' g (l ++ [lc]) i;
    q_k : forall s g l i v, I s g l i -> exists s', b_new_k_power B s (length l) v = Some (s', Ok tt) /\ I s' g l (i ++ [length l]);
    q_push : forall s n, b_push_namespace B s n = Some s;
    q_pop : forall s, b_pop_namespace B s = Some s }.
  Variable I : BState B -> nat -> list (LC F) -> list nat -> Prop.
  Hypothesis Q : Quiet I.

  Record Along (t : Synth B) (s : layout F) : Prop := {
    al_half : current_variable t = l_half s; al_gates : sn t = l_gates s; al_lcs : sq t = length (l_lcs s);
    al_inv : I (backend t) (l_gates s) (l_lcs s) (l_inputs s) }.

  Lemma quiet_wire t s v ann x : Along t s -> exists t', syn_alloc B t ann v = Some (t', Ok (snd (lay_wire s x), false)) /\ Along t' (fst (lay_wire s x)).
  Proof.
    intros [Hh Hg Hl HI]. unfold syn_alloc, lay_wire. rewrite Hh. destruct (l_half s) as [i|].
    - destruct (q_get I Q (backend t) (VA i)) as (o & Eo). cbn [backend]. rewrite Eo. cbn [obind].
      rewrite (q_set I Q). cbn [obind]. rewrite (q_set I Q). cbn [obind]. eexists. split; [reflexivity|].
      constructor; cbn; auto.
    - destruct (q_gate I Q (backend t) _ _ _ None HI) as (b & Eb & HI'). rewrite Eb. cbn [obind]. rewrite (q_set I Q). cbn [obind].
      rewrite Hg. eexists. split; [reflexivity|]. constructor; cbn; auto.
  Qed.
  Lemma quiet_lc t s lc : Along t s -> l_gates s <= N -> Forall (fun t => within (l_gates s) (fst t) = true) lc ->
    exists t', syn_enforce_zero B t lc = Some t' /\ Along t' (lay_lc s lc).
  Proof.
    intros [Hh Hg Hl HI] HN HW. unfold syn_enforce_zero.
    destruct (q_lc I Q (backend t) _ _ _ "TODO_LINEAR"%string lc HI HN HW) as (s1 & y & s' & E1 & E2 & HI').
    rewrite E1. cbn [obind]. rewrite E2. cbn [obind]. eexists. split; [reflexivity|].
    constructor; cbn [current_variable sn sq backend lay_lc l_half l_gates l_lcs l_inputs]; auto.
    rewrite app_length, Hl. cbn [length]. lia.
  Qed.
  Lemma quiet_input t s v ann x : lay_ok s -> Along t s -> l_gates (fst (lay_input s x)) <= N ->
    exists t', syn_alloc_input B t ann v = Some (t', Ok (snd (lay_input s x), true)) /\ Along t' (fst (lay_input s x)).
  Proof.
    intros OKs HA HN. rewrite lay_input_split in *. cbv zeta in *. cbn [fst snd] in *. cbn [l_gates] in HN.
    destruct (quiet_wire t s v ann x HA) as (t1 & E1 & HA1). unfold syn_alloc_input. rewrite E1. cbn [obind].
    destruct (ok_wire s x OKs) as (OK1 & HW).
    destruct (quiet_lc t1 _ (lc_add_v lc_zero (snd (lay_wire s x))) HA1) as (t2 & E2 & HA2).
    { cbn [lay_lc l_gates] in HN. exact HN. }
    { constructor; [exact HW|constructor]. }
    rewrite E2. cbn [obind]. destruct HA2 as [Hh Hg Hl HI]. rewrite Hl.
    destruct (q_k I Q _ _ _ _ (ok v) HI) as (b & Eb & HI'). rewrite Eb. cbn [obind]. eexists. split; [reflexivity|].
    constructor; cbn [current_variable sn sq backend l_half l_gates l_lcs l_inputs]; auto.
  Qed.
  Lemma quiet_gate t s v ann a b c : Along t s -> exists t', syn_multiply B t ann v =
    Some (t', Ok (VA (S (l_gates s)), VB (S (l_gates s)), VC (S (l_gates s)), false)) /\ Along t' (lay_gate s a b c).
  Proof.
    intros [Hh Hg Hl HI]. unfold syn_multiply. destruct (q_gate I Q _ _ _ _ (Some ann) HI) as (b' & Eb & HI'). rewrite Eb. cbn [obind].
    rewrite (q_set I Q). cbn [obind]. rewrite (q_set I Q). cbn [obind]. rewrite (q_set I Q). cbn [obind].
    rewrite Hg. eexists. split; [reflexivity|]. constructor; cbn; auto.
  Qed.

  Lemma quiet_run {A} (p : Prog F A) : forall t s s' a, lay_ok s -> Along t s -> lay false p s = Some (s', a) -> l_gates s' <= N ->
    exists t', syn_run B p t = Some (t', a) /\ Along t' s'.
  Proof.
    induction p as [a0| |ann v k IH|ann v k IH|lc k IH|ann v k IH|n k IH|k IH]; cbn [lay syn_run]; intros t s s' a OKs HA H HN.
    - injection H as <- <-. exists t. split; [reflexivity|exact HA].
    - discriminate H.
    - cbn [value_of] in H. destruct (quiet_wire t s v ann fzero HA) as (t1 & E1 & HA1). rewrite E1. cbn [obind].
      destruct (ok_wire s fzero OKs) as (OK1 & _).
      destruct (lay_wire s fzero) as [s1 x]. cbn [fst snd] in *. exact (IH _ _ _ _ _ OK1 HA1 H HN).
    - cbn [value_of] in H. pose proof (ok_input s fzero OKs) as OK1.
      assert (HN1 : l_gates (fst (lay_input s fzero)) <= N).
      { destruct (lay_input s fzero) as [s1 x]. apply lay_mono in H. cbn [fst]. lia. }
      destruct (quiet_input t s v ann fzero OKs HA HN1) as (t1 & E1 & HA1). rewrite E1. cbn [obind].
      destruct (lay_input s fzero) as [s1 x]. cbn [fst snd] in *. exact (IH _ _ _ _ _ OK1 HA1 H HN).
    - destruct (forallb _ lc) eqn:E; [|discriminate H]. rewrite forallb_forall in E. apply Forall_forall in E.
      assert (HN1 : l_gates s <= N). { apply lay_mono in H. cbn [lay_lc l_gates] in H. lia. }
      destruct (quiet_lc t s lc HA HN1 E) as (t1 & E1 & HA1). rewrite E1. cbn [obind]. exact (IH _ _ _ _ (ok_lc s lc OKs E) HA1 H HN).
    - cbn [value_of] in H. destruct (quiet_gate t s v ann fzero fzero fzero HA) as (t1 & E1 & HA1). rewrite E1. cbn [obind].
      exact (IH _ _ _ _ _ (ok_gate s _ _ _ OKs) HA1 H HN).
    - rewrite (q_push I Q). cbn [obind]. refine (IH _ _ _ _ OKs _ H HN). destruct HA; constructor; assumption.
    - rewrite (q_pop I Q). cbn [obind]. refine (IH _ _ _ _ OKs _ H HN). destruct HA; constructor; assumption.
  Qed.
  Theorem quiet_synthesize b circuit s : I b 0 [] [] -> laid_out false circuit s -> l_gates s <= N ->
    exists b', synthesize B b circuit = Done (Ok b') /\ I b' (l_gates s) (l_lcs s) (l_inputs s).
  Proof.
    intros HI H HN. unfold synthesize, basic_synthesize.
    set (s0 := mkLayout None 0 [] [] [] [] [] [] : layout F).
    assert (OK0 : lay_ok s0).
    { constructor; cbn; try reflexivity; try discriminate; constructor. }
    assert (HA0 : Along (mkSynth b None 0 0) s0) by (constructor; auto).
    destruct (quiet_input _ s0 (Ok fone) "one"%string fzero OK0 HA0) as (t1 & E1 & HA1).
    { unfold laid_out in H. apply lay_mono in H. cbn in *. lia. }
    change (snd (lay_input s0 fzero)) with (VA 1) in E1. rewrite E1. cbn [obind].
    change (fst (lay_input s0 fzero)) with (layout0 (F := F) false) in HA1.
    destruct (quiet_run (circuit (VA 1)) t1 _ _ _ (ok_layout0 false) HA1 H HN) as (t2 & E2 & HA2).
    unfold basic_ONE. rewrite E2. exists (backend t2). split; [reflexivity|apply HA2].
  Qed.
End Quiet.

(** ** The prover's backend *)
Section Loud.
  Context {F : Field}.
  Notation B := (pa_backend F).
  Record PAlong (t : Synth B) (s : layout F) : Prop := {
    pl_half : current_variable t = l_half s; pl_gates : sn t = l_gates s; pl_lcs : sq t = length (l_lcs s);
    pl_state : backend t = mkPA (l_gates s) (length (l_lcs s)) (l_a s) (l_b s) (l_c s) (combine (l_inputs s) (l_values s)) }.

  Lemma vec_set_last (l : list F) y x n : length l = n -> vec_set (l ++ [y]) (S n) x = Some (l ++ [x]).
  Proof.
    intro H. rewrite vec_set_put by (rewrite app_length; cbn [length]; lia). unfold put. rewrite Nat.sub_succ, Nat.sub_0_r.
    rewrite firstn_app, H, Nat.sub_diag, firstn_all2 by lia. cbn [firstn]. rewrite app_nil_r.
    rewrite skipn_all2 by (rewrite app_length; cbn [length]; lia). reflexivity.
  Qed.
  Lemma loud_wire t s x ann : lay_ok s -> PAlong t s ->
    exists t', syn_alloc B t ann (Ok x) = Some (t', Ok (snd (lay_wire s x), true)) /\ PAlong t' (fst (lay_wire s x)).
  Proof.
    intros OKs [Hh Hg Hl HI]. unfold syn_alloc, lay_wire. rewrite Hh. pose proof (lo_half s OKs) as HH. destruct (l_half s) as [i|].
    - specialize (HH i eq_refl). cbn [backend]. rewrite HI. cbn [b_get_var pa_backend]. unfold pa_get_var. cbn [pa_a pa_b pa_c var_get].
      rewrite vec_get_wire by (rewrite (lo_a s OKs); exact HH). cbn [option_map obind rbind ok_or_missing].
      cbn [b_set_var pa_backend]. unfold pa_set_var at 1. cbn [pa_n pa_q pa_a pa_b pa_c pa_inputs].
      rewrite vec_set_put by (rewrite (lo_b s OKs); exact HH). cbn [obind].
      unfold pa_set_var. cbn [pa_n pa_q pa_a pa_b pa_c pa_inputs ok_or_missing].
      rewrite vec_set_put by (rewrite (lo_c s OKs); exact HH). cbn [obind].
      eexists. split; [reflexivity|]. constructor; cbn [current_variable sn sq backend fst l_half l_gates l_lcs l_a l_b l_c l_inputs l_values]; auto.
    - cbn [backend]. rewrite HI. cbn [b_new_multiplication_gate pa_backend obind]. unfold pa_new_gate. cbn [pa_n pa_q pa_a pa_b pa_c pa_inputs obind].
      cbn [b_set_var pa_backend]. unfold pa_set_var. cbn [pa_n pa_q pa_a pa_b pa_c pa_inputs]. rewrite Hg.
      rewrite (vec_set_last _ _ _ _ (lo_a s OKs)). cbn [obind]. eexists. split; [reflexivity|].
      constructor; cbn [current_variable sn sq backend fst l_half l_gates l_lcs l_a l_b l_c l_inputs l_values]; auto.
  Qed.
  Lemma loud_insert (b : PAssignment F) lc y : insert_all B b lc y = Some b.
  Proof. induction lc as [|[x c] lc IH]; [reflexivity|]. cbn [insert_all b_insert_coefficient pa_backend default_insert_coefficient obind]. exact IH. Qed.
  Lemma loud_lc t s lc : PAlong t s -> exists t', syn_enforce_zero B t lc = Some t' /\ PAlong t' (lay_lc s lc).
  Proof.
    intros [Hh Hg Hl HI]. unfold syn_enforce_zero. cbn [b_new_linear_constraint pa_backend]. unfold pa_new_lc. cbn [obind].
    rewrite loud_insert. cbn [obind]. eexists. split; [reflexivity|].
    constructor; cbn [current_variable sn sq backend lay_lc l_half l_gates l_lcs l_a l_b l_c l_inputs l_values]; auto.
    - rewrite Hl, app_length. cbn [length]. lia.
    - rewrite HI. cbn [pa_n pa_q pa_a pa_b pa_c pa_inputs]. rewrite app_length, Nat.add_1_r. reflexivity.
  Qed.
  Lemma combine_snoc {X Y} (l : list X) (m : list Y) x y : length l = length m -> combine (l ++ [x]) (m ++ [y]) = combine l m ++ [(x, y)].
  Proof. revert m. induction l as [|a l IH]; intros [|b m] H; try discriminate H; [reflexivity|]. cbn [app combine]. rewrite IH by (cbn in H; lia). reflexivity. Qed.
  Lemma loud_input t s x ann : lay_ok s -> PAlong t s ->
    exists t', syn_alloc_input B t ann (Ok x) = Some (t', Ok (snd (lay_input s x), true)) /\ PAlong t' (fst (lay_input s x)).
  Proof.
    intros OKs HA. rewrite lay_input_split. cbv zeta. cbn [fst snd].
    destruct (loud_wire t s x ann OKs HA) as (t1 & E1 & HA1). destruct (ok_wire s x OKs) as (OK1 & HW).
    unfold syn_alloc_input. rewrite E1. cbn [obind].
    change (lc_add_v lc_zero (snd (lay_wire s x))) with [(snd (lay_wire s x), @COne F)].
    destruct (loud_lc t1 _ [(snd (lay_wire s x), COne)] HA1) as (t2 & E2 & HA2). rewrite E2. cbn [obind].
    destruct HA2 as [Hh Hg Hl HI]. cbn [b_new_k_power pa_backend]. unfold pa_new_k. cbn [ok obind].
    eexists. split; [reflexivity|].
    constructor; cbn [current_variable sn sq backend l_half l_gates l_lcs l_a l_b l_c l_inputs l_values]; auto.
    rewrite HI. cbn [pa_n pa_q pa_a pa_b pa_c pa_inputs]. f_equal. rewrite combine_snoc, Hl; [reflexivity|]. symmetry.
    cbn [lay_lc l_inputs l_values]. apply OK1.
  Qed.
  Lemma loud_gate t s x y z ann : lay_ok s -> PAlong t s -> exists t', syn_multiply B t ann (Ok (x, y, z)) =
    Some (t', Ok (VA (S (l_gates s)), VB (S (l_gates s)), VC (S (l_gates s)), true)) /\ PAlong t' (lay_gate s x y z).
  Proof.
    intros OKs [Hh Hg Hl HI]. unfold syn_multiply. rewrite HI. cbn [b_new_multiplication_gate pa_backend]. unfold pa_new_gate.
    cbn [pa_n pa_q pa_a pa_b pa_c pa_inputs obind]. cbn [b_set_var pa_backend rbind]. rewrite Hg. unfold pa_set_var at 1.
    cbn [pa_n pa_q pa_a pa_b pa_c pa_inputs]. rewrite (vec_set_last _ _ _ _ (lo_a s OKs)). cbn [obind stored option_map ok_or_missing ok].
    unfold pa_set_var at 1. cbn [pa_n pa_q pa_a pa_b pa_c pa_inputs]. rewrite (vec_set_last _ _ _ _ (lo_b s OKs)). cbn [obind].
    unfold pa_set_var at 1. cbn [pa_n pa_q pa_a pa_b pa_c pa_inputs]. rewrite (vec_set_last _ _ _ _ (lo_c s OKs)). cbn [obind].
    eexists. split; [reflexivity|]. constructor; cbn; auto.
  Qed.
  Lemma loud_run {A} (p : Prog F A) : forall t s s' a, lay_ok s -> PAlong t s -> lay true p s = Some (s', a) ->
    exists t', syn_run B p t = Some (t', a) /\ PAlong t' s'.
  Proof.
    induction p as [a0| |ann v k IH|ann v k IH|lc k IH|ann v k IH|n k IH|k IH]; cbn [lay syn_run]; intros t s s' a OKs HA H.
    - injection H as <- <-. exists t. split; [reflexivity|exact HA].
    - discriminate H.
    - destruct v as [x|e]; cbn [value_of] in H; [|discriminate H]. destruct (loud_wire t s x ann OKs HA) as (t1 & E1 & HA1). rewrite E1. cbn [obind].
      destruct (ok_wire s x OKs) as (OK1 & _). destruct (lay_wire s x) as [s1 y]. cbn [fst snd] in *. exact (IH _ _ _ _ _ OK1 HA1 H).
    - destruct v as [x|e]; cbn [value_of] in H; [|discriminate H]. destruct (loud_input t s x ann OKs HA) as (t1 & E1 & HA1). rewrite E1. cbn [obind].
      pose proof (ok_input s x OKs) as OK1. destruct (lay_input s x) as [s1 y]. cbn [fst snd] in *. exact (IH _ _ _ _ _ OK1 HA1 H).
    - destruct (forallb _ lc) eqn:E; [|discriminate H]. rewrite forallb_forall in E. apply Forall_forall in E.
      destruct (loud_lc t s lc HA) as (t1 & E1 & HA1). rewrite E1. cbn [obind]. exact (IH _ _ _ _ (ok_lc s lc OKs E) HA1 H).
    - destruct v as [[[x y] z]|e]; cbn [value_of] in H; [|discriminate H].
      destruct (loud_gate t s x y z ann OKs HA) as (t1 & E1 & HA1). rewrite E1. cbn [obind]. exact (IH _ _ _ _ _ (ok_gate s _ _ _ OKs) HA1 H).
    - cbn [b_push_namespace pa_backend default_push_namespace obind]. refine (IH _ _ _ _ OKs _ H). destruct HA; constructor; assumption.
    - cbn [b_pop_namespace pa_backend default_pop_namespace obind]. refine (IH _ _ _ _ OKs _ H). destruct HA; constructor; assumption.
  Qed.
  Theorem loud_synthesize circuit s : laid_out true circuit s ->
    synthesize B pa0 circuit = Done (Ok (mkPA (l_gates s) (length (l_lcs s)) (l_a s) (l_b s) (l_c s) (combine (l_inputs s) (l_values s)))).
  Proof.
    intro H. unfold synthesize, basic_synthesize.
    set (s0 := mkLayout None 0 [] [] [] [] [] [] : layout F).
    assert (OK0 : lay_ok s0).
    { constructor; cbn; try reflexivity; try discriminate; constructor. }
    assert (HA0 : PAlong (mkSynth (pa0 : BState B) None 0 0) s0) by (constructor; auto).
    destruct (loud_input _ s0 fone "one"%string OK0 HA0) as (t1 & E1 & HA1).
    change (snd (lay_input s0 fone)) with (VA 1) in E1. rewrite E1. cbn [obind].
    change (fst (lay_input s0 fone)) with (layout0 (F := F) true) in HA1.
    destruct (loud_run (circuit (VA 1)) t1 _ _ _ (ok_layout0 true) HA1 H) as (t2 & E2 & HA2).
    unfold basic_ONE. rewrite E2. rewrite (pl_state _ _ HA2). reflexivity.
  Qed.
End Loud.

(** ** The verifier's map of the public inputs *)
Section InputMap.
  Context {F : Field}.
  Lemma inputmap_quiet N : Quiet (inputmap_backend F) N (fun s _ _ i => s = i).
  Proof.
    constructor; cbn; try (intros; eexists; reflexivity); try reflexivity.
    - intros s g l i ann ->. eexists. split; reflexivity.
    - intros s g l i ann lc -> _ _. exists i, tt, i. split; [reflexivity|]. split; [|reflexivity].
      induction lc as [|[x c] lc IH]; [reflexivity|]. exact IH.
    - intros s g l i v ->. eexists. split; reflexivity.
  Qed.
  Lemma inputmap_synthesize circuit s : laid_out false circuit s -> synthesize (inputmap_backend F) [] circuit = Done (Ok (l_inputs s)).
  Proof.
    intro H. destruct (quiet_synthesize _ (l_gates s) _ (inputmap_quiet _) [] circuit s eq_refl H (le_n _)) as (b & E & ->). exact E.
  Qed.
End InputMap.
