(** constraint_count counts the gates and the linear constraints of the system that the
    prover and the verifier use. *)
From Coq Require Import String List Bool Arith Lia.
From Verif Require Import Model.FieldTrait Model.Circuits Model.Synthesis Model.Dev
  Spec.CircuitSpec Spec.DevSpec Spec.SystemSpec Proofs.SystemP Proofs.AlikeP Proofs.AlikeLayoutP Proofs.CountP.
Import ListNotations.
Open Scope nat_scope. Open Scope list_scope.
Local Notation length := List.length.

Section CountLayout.
  Context {F : Field}.
  Notation B := (count_backend F).
  Definition mults (st : Synth B) : nat := total_mults (cs_current (backend st)) + total_mults (sum (cs_stack (backend st))).
  Definition lcsum (st : Synth B) : nat := total_lcs (cs_current (backend st)) + total_lcs (sum (cs_stack (backend st))).
  (** [d] namespaces are open *)
  Record Counted (d : nat) (t : Synth B) (s : layout F) : Prop := {
    ct_half : current_variable t = l_half s; ct_gates : sn t = l_gates s; ct_lcs : sq t = length (l_lcs s);
    ct_mults : mults t = l_gates s; ct_lines : lcsum t = length (l_lcs s);
    ct_names : length (cs_namespace (backend t)) = d; ct_plain : Forall (fun n => has_slash n = false) (cs_namespace (backend t));
    ct_stack : length (cs_stack (backend t)) = d }.
  Ltac fin := unfold mults, lcsum in *; cbn [backend current_variable sn sq cnt_with cs_current cs_stack cs_namespace total_mults total_lcs lay_wire lay_lc lay_gate l_half l_gates l_lcs fst snd] in *; rewrite ?app_length; cbn [length]; auto; lia.
  Lemma count_wire d t s v ann x : Counted d t s -> exists t', syn_alloc B t ann v = Some (t', Ok (snd (lay_wire s x), false)) /\ Counted d t' (fst (lay_wire s x)).
  Proof.
    intros [Hh Hg Hl H1 H2 H3 H4 H5]. unfold syn_alloc, lay_wire. rewrite Hh. destruct (l_half s) as [i|]; cbn -[Nat.add].
    - eexists. split; [reflexivity|]. constructor; fin.
    - rewrite Hg. eexists. split; [reflexivity|]. constructor; fin.
  Qed.
  Lemma count_lc d t s lc : Counted d t s -> exists t', syn_enforce_zero B t lc = Some t' /\ Counted d t' (lay_lc s lc).
  Proof.
    intros [Hh Hg Hl H1 H2 H3 H4 H5]. unfold syn_enforce_zero. cbn [count_backend b_new_linear_constraint cnt_new_lc obind]. rewrite insert_count. cbn [obind].
    eexists. split; [reflexivity|]. constructor; fin.
  Qed.
  Lemma count_input d t s v ann x : Counted d t s -> exists t', syn_alloc_input B t ann v = Some (t', Ok (snd (lay_input s x), true)) /\ Counted d t' (fst (lay_input s x)).
  Proof.
    intro HA. rewrite lay_input_split. cbv zeta. cbn [fst snd]. destruct (count_wire d t s v ann x HA) as (t1 & E1 & HA1). unfold syn_alloc_input. rewrite E1. cbn [obind].
    destruct (count_lc d t1 _ (lc_add_v lc_zero (snd (lay_wire s x))) HA1) as (t2 & E2 & HA2). rewrite E2. cbn [obind]. eexists. split; [reflexivity|].
    destruct HA2 as [Hh Hg Hl H1 H2 H3 H4 H5]. constructor; [exact Hh|exact Hg|exact Hl|exact H1|exact H2|exact H3|exact H4|exact H5].
  Qed.
  Lemma count_gate d t s v ann a b c : Counted d t s -> exists t', syn_multiply B t ann v =
    Some (t', Ok (VA (S (l_gates s)), VB (S (l_gates s)), VC (S (l_gates s)), false)) /\ Counted d t' (lay_gate s a b c).
  Proof.
    intros [Hh Hg Hl H1 H2 H3 H4 H5]. unfold syn_multiply. cbn -[Nat.add]. rewrite Hg. eexists. split; [reflexivity|]. constructor; fin.
  Qed.
  Lemma count_push d t s n : has_slash n = false -> Counted d t s ->
    exists b, b_push_namespace B (backend t) n = Some b /\ Counted (S d) (mkSynth b (current_variable t) (sq t) (sn t)) s.
  Proof.
    intros Hn [Hh Hg Hl H1 H2 H3 H4 H5]. eexists. split; [reflexivity|].
    constructor; unfold mults, lcsum in *; cbn [backend current_variable sn sq cs_current cs_stack cs_namespace counts0 total_mults total_lcs]; auto; rewrite ?sum_app, ?app_length; cbn; try lia.
    apply Forall_app. split; [exact H4|]. constructor; [exact Hn|constructor].
  Qed.
  Lemma count_pop d t s : Counted (S d) t s ->
    exists b, b_pop_namespace B (backend t) = Some b /\ Counted d (mkSynth b (current_variable t) (sq t) (sn t)) s.
  Proof.
    intros [Hh Hg Hl H1 H2 H3 H4 H5].
    destruct (exists_last (l := cs_namespace (backend t))) as (ns & n & En); [intro X; rewrite X in H3; discriminate H3|].
    destruct (exists_last (l := cs_stack (backend t))) as (st & c & Es); [intro X; rewrite X in H5; discriminate H5|].
    unfold mults, lcsum in H1, H2. rewrite En in H3, H4. rewrite Es in H1, H2, H5. rewrite app_length in H3, H5.
    rewrite sum_app in H1, H2. change (sum [c]) with (counts_add c counts0) in H1, H2.
    apply Forall_app in H4. destruct H4 as (H4 & Hn). inversion Hn as [|? ? Hn' _]. subst.
    cbn [count_backend b_pop_namespace]. unfold cnt_pop. rewrite En, Es.
    assert (VP : forall X (l : list X) x, vec_pop (l ++ [x]) = Some (l, x)).
    { intros X l x. unfold vec_pop. rewrite rev_app_distr. cbn. rewrite rev_involutive. reflexivity. }
    rewrite !VP. cbn [obind]. unfold compute_path. rewrite Hn'. cbn [obind]. eexists. split; [reflexivity|].
    constructor; unfold mults, lcsum in *; cbn [backend current_variable sn sq cs_current cs_stack cs_namespace counts_add total_mults total_lcs counts0] in *; cbn [length] in *; auto; lia.
  Qed.
  Lemma count_run {A} (p : Prog F A) : forall d t s s' a, tidy d p -> Counted d t s -> lay false p s = Some (s', a) ->
    exists t', syn_run B p t = Some (t', a) /\ Counted 0 t' s'.
  Proof.
    induction p as [a0| |ann v k IH|ann v k IH|lc k IH|ann v k IH|n k IH|k IH]; cbn [lay syn_run tidy]; intros d t s s' a HT HA H.
    - injection H as <- <-. exists t. split; [reflexivity|]. rewrite HT in HA. exact HA.
    - discriminate H.
    - cbn [value_of] in H. destruct (count_wire d t s v ann fzero HA) as (t1 & E1 & HA1). rewrite E1. cbn [obind].
      destruct (lay_wire s fzero) as [s1 x]. cbn [fst snd] in *. exact (IH _ _ _ _ _ _ (proj2 HT _) HA1 H).
    - cbn [value_of] in H. destruct (count_input d t s v ann fzero HA) as (t1 & E1 & HA1). rewrite E1. cbn [obind].
      destruct (lay_input s fzero) as [s1 x]. cbn [fst snd] in *. exact (IH _ _ _ _ _ _ (proj2 HT _) HA1 H).
    - destruct (forallb _ lc) eqn:E; [|discriminate H].
      destruct (count_lc d t s lc HA) as (t1 & E1 & HA1). rewrite E1. cbn [obind]. exact (IH _ _ _ _ _ HT HA1 H).
    - cbn [value_of] in H. destruct (count_gate d t s v ann fzero fzero fzero HA) as (t1 & E1 & HA1). rewrite E1. cbn [obind].
      exact (IH _ _ _ _ _ _ (proj2 HT _) HA1 H).
    - destruct (count_push d t s n (proj1 HT) HA) as (b & E & HA1). rewrite E. cbn [obind]. exact (IH _ _ _ _ _ (proj2 HT) HA1 H).
    - destruct d as [|d]; [destruct HT|]. destruct (count_pop d t s HA) as (b & E & HA1). rewrite E. cbn [obind]. exact (IH _ _ _ _ _ HT HA1 H).
  Qed.
  (** Conversely, if the circuit only uses its own variables *)
  Lemma within_wire (s : layout F) v : lay_ok s -> (forall x, within (l_gates s) x = true -> within (l_gates (fst (lay_wire s v))) x = true) /\
    within (l_gates (fst (lay_wire s v))) (snd (lay_wire s v)) = true.
  Proof. intro OKs. split; [|apply (ok_wire s v OKs)]. intros x. apply within_mono, lay_wire_gates. Qed.
  Lemma count_back {A} (p : CS F A) : forall d t s t' a, lay_ok s -> tidy d p -> (forall V : Var -> Prop, (forall x, within (l_gates s) x = true -> V x) -> tame V p) ->
    Counted d t s -> syn_run B p t = Some (t', a) -> exists s', lay false p s = Some (s', a).
  Proof.
    induction p as [a0| |ann v k IH|ann v k IH|lc k IH|ann v k IH|n k IH|k IH]; cbn [lay syn_run tidy tame]; intros d t s t' a OKs HT HV HA H.
    - injection H as <- <-. exists s. reflexivity.
    - discriminate H.
    - cbn [value_of]. destruct (count_wire d t s v ann fzero HA) as (t1 & E1 & HA1). rewrite E1 in H. cbn [obind] in H.
      destruct (within_wire s fzero OKs) as (W1 & W2). destruct (ok_wire s fzero OKs) as (OK1 & _).
      destruct (lay_wire s fzero) as [s1 x]. cbn [fst snd] in *. refine (IH _ _ _ _ _ _ OK1 (proj2 HT _) _ HA1 H).
      intros V HX. apply (HV V); auto.
    - cbn [value_of]. destruct (count_input d t s v ann fzero HA) as (t1 & E1 & HA1). rewrite E1 in H. cbn [obind] in H.
      destruct (within_wire s fzero OKs) as (W1 & W2). pose proof (ok_input s fzero OKs) as OK1. rewrite lay_input_split in *. cbv zeta in *. cbn [fst snd] in *.
      refine (IH _ _ _ _ _ _ OK1 (proj2 HT _) _ HA1 H). cbn [l_gates lay_lc]. intros V HX. apply (HV V); auto.
    - assert (E : forallb (fun t => within (l_gates s) (fst t)) lc = true).
      { apply forallb_forall. apply Forall_forall. apply (HV (fun x => within (l_gates s) x = true)). auto. }
      rewrite E. destruct (count_lc d t s lc HA) as (t1 & E1 & HA1). rewrite E1 in H. cbn [obind] in H.
      refine (IH _ _ _ _ _ (ok_lc s lc OKs _) HT _ HA1 H); [apply Forall_forall, forallb_forall, E|]. intros V HX. apply (HV V HX).
    - cbn [value_of]. destruct (count_gate d t s v ann fzero fzero fzero HA) as (t1 & E1 & HA1). rewrite E1 in H. cbn [obind] in H.
      assert (W : within (l_gates (lay_gate s fzero fzero fzero)) (VA (S (l_gates s))) = true) by (cbn -[Nat.leb]; apply andb_true_intro; split; apply Nat.leb_le; lia).
      refine (IH _ _ _ _ _ _ (ok_gate s _ _ _ OKs) (proj2 HT _) _ HA1 H). intros V HX. apply (HV V); [|apply HX; exact W..].
      intros x Hx. apply HX. revert Hx. apply within_mono. cbn. lia.
    - destruct (count_push d t s n (proj1 HT) HA) as (b & E & HA1). rewrite E in H. cbn [obind] in H. exact (IH _ _ _ _ _ OKs (proj2 HT) HV HA1 H).
    - destruct d as [|d]; [destruct HT|]. destruct (count_pop d t s HA) as (b & E & HA1). rewrite E in H. cbn [obind] in H. exact (IH _ _ _ _ _ OKs HT HV HA1 H).
  Qed.
  Theorem count_layout (circuit : Var -> CS F unit) s : tidy 0 (circuit (VA 1)) -> laid_out false circuit s ->
    exists m c, constraint_count circuit = Some (Ok m) /\ find_count "" m = Some c /\ total_mults c = l_gates s /\ total_lcs c = length (l_lcs s).
  Proof.
    intros HT H. unfold constraint_count, basic_synthesize. set (s0 := mkLayout None 0 [] [] [] [] [] [] : layout F).
    assert (HA0 : Counted 0 (@mkSynth F B (mkCount [] [] [] counts0) None 0 0) s0) by (constructor; auto; constructor).
    destruct (count_input 0 _ s0 (Ok fone) "one"%string fzero HA0) as (t1 & E1 & HA1).
    change (snd (lay_input s0 fzero)) with (VA 1) in E1. rewrite E1. cbn [obind].
    change (fst (lay_input s0 fzero)) with (layout0 (F := F) false) in HA1.
    destruct (count_run (circuit (VA 1)) 0 t1 _ _ _ HT HA1 H) as (t2 & E2 & HA2).
    unfold basic_ONE. rewrite E2. cbn [obind]. eexists _, _. split; [reflexivity|]. split; [apply find_insert|].
    destruct HA2 as [_ _ _ H1 H2 _ _ H5]. unfold mults, lcsum in *. destruct (cs_stack (backend t2)); [|discriminate H5]. cbn in H1, H2. lia.
  Qed.
  Theorem counted_layout (circuit : Var -> CS F unit) m : tidy 0 (circuit (VA 1)) -> (forall V : Var -> Prop, V (VA 1) -> tame V (circuit (VA 1))) ->
    constraint_count circuit = Some (Ok m) -> exists s, laid_out false circuit s.
  Proof.
    intros HT HV H. unfold constraint_count, basic_synthesize in H. set (s0 := mkLayout None 0 [] [] [] [] [] [] : layout F).
    assert (HA0 : Counted 0 (@mkSynth F B (mkCount [] [] [] counts0) None 0 0) s0) by (constructor; auto; constructor).
    destruct (count_input 0 _ s0 (Ok fone) "one"%string fzero HA0) as (t1 & E1 & HA1).
    change (snd (lay_input s0 fzero)) with (VA 1) in E1. rewrite E1 in H. cbn [obind] in H.
    change (fst (lay_input s0 fzero)) with (layout0 (F := F) false) in HA1. unfold basic_ONE in H.
    destruct (syn_run B (circuit (VA 1)) t1) as [[t2 a]|] eqn:E; [|discriminate H]. cbn [obind] in H.
    destruct (count_back (circuit (VA 1)) 0 t1 _ t2 a (ok_layout0 false) HT) with (2 := HA1) (3 := E) as (s & Hs).
    - intros V HX. apply HV, HX. reflexivity.
    - exists s. unfold laid_out. rewrite Hs. destruct a as [[]|e]; [reflexivity|discriminate H].
  Qed.
End CountLayout.
