(** dev.rs: constraint_count. *)
From Coq Require Import String List Bool Arith Lia ZArith Ring Field.
From Verif Require Import Model.FieldTrait Model.Circuits Model.Synthesis Model.Dev Spec.FieldLaws
  Spec.CircuitSpec Spec.DriverSpec Spec.DevSpec Proofs.FieldGen Proofs.DriverP.
From Verif Require Export Spec.CountSpec.
Import ListNotations.
Open Scope nat_scope.
Open Scope list_scope.

Section Count.
  Context {F : Field}.
  Local Notation B := (count_backend F).
  Implicit Types (st : Synth B).

  Definition sum (l : list Counts) : Counts := fold_right counts_add counts0 l.
  Lemma counts_eq a b c d a' b' c' d' : a = a' -> b = b' -> c = c' -> d = d' -> mkCounts a b c d = mkCounts a' b' c' d'.
  Proof. congruence. Qed.
  Lemma counts_comm a b : counts_add a b = counts_add b a.
  Proof. destruct a, b. apply counts_eq; cbn -[Nat.sub]; lia. Qed.
  Lemma counts_assoc a b c : counts_add (counts_add a b) c = counts_add a (counts_add b c).
  Proof. destruct a, b, c. apply counts_eq; cbn -[Nat.sub]; lia. Qed.
  Lemma counts_0_l a : counts_add counts0 a = a.
  Proof. destruct a. reflexivity. Qed.
  Lemma sum_app l1 l2 : sum (l1 ++ l2) = counts_add (sum l1) (sum l2).
  Proof. induction l1 as [|x l1 IH]; simpl; [rewrite counts_0_l; reflexivity|]. rewrite IH, counts_assoc. reflexivity. Qed.

  (** what one event adds *)
  Definition ev_counts (ev : event F) (gates : nat) : Counts :=
    mkCounts (count_allocs [ev]) (count_gates [ev]) gates (length (trace_lcs [ev])).

  Definition same_frame st st' : Prop :=
    cs_namespace (backend st') = cs_namespace (backend st) /\
    cs_stack (backend st') = cs_stack (backend st) /\ cs_counts (backend st') = cs_counts (backend st).
  (** single wires handed out, in terms of gates and the pending one *)
  Definition pend st : nat := match current_variable st with Some _ => 1 | None => 0 end.
  Definition wires st st' (tr : list (event F)) : Prop :=
    2 * sn st' + pend st = 2 * sn st + pend st' + count_allocs tr + 2 * count_gates tr /\ sn st <= sn st'.
  Definition grows st st' (tr : list (event F)) : Prop :=
    cs_current (backend st') =
    counts_add (cs_current (backend st))
      (mkCounts (count_allocs tr) (count_gates tr) (sn st' - sn st) (length (trace_lcs tr))) /\
    wires st st' tr.

  Lemma alloc_count st ann val st' r : syn_alloc B st ann val = Some (st', r) ->
    (exists x, r = Ok (x, false) /\ grows st st' [EvAlloc x None]) /\ same_frame st st'.
  Proof.
    unfold syn_alloc. destruct (current_variable st) as [i|] eqn:Ecv; cbn; intro H.
    - injection H as <- <-. split; [|unfold same_frame; auto]. eexists. split; [reflexivity|].
      unfold grows, wires, pend; rewrite Ecv; cbn -[Nat.sub]. split; [|lia]. destruct (cs_current (backend st)). apply counts_eq; cbn -[Nat.sub]; lia.
    - injection H as <- <-. split; [|unfold same_frame; auto]. eexists. split; [reflexivity|].
      unfold grows, wires, pend; rewrite Ecv; cbn -[Nat.sub]. split; [|lia]. destruct (cs_current (backend st)). apply counts_eq; cbn -[Nat.sub]; lia.
  Qed.
  Lemma insert_count lc : forall (b : BState B) y, insert_all B b lc y = Some b.
  Proof. induction lc as [|[x c] lc IH]; intros; [reflexivity|]. apply IH. Qed.
  Lemma enforce_count st lc st' : syn_enforce_zero B st lc = Some st' ->
    grows st st' [EvLC lc] /\ same_frame st st'.
  Proof.
    unfold syn_enforce_zero. cbn [count_backend b_new_linear_constraint cnt_new_lc obind]. rewrite insert_count. cbn [obind].
    intro H. injection H as <-. split; [|unfold same_frame; auto]. unfold grows, wires, pend; cbn -[Nat.sub]. split; [|lia].
    destruct (cs_current (backend st)). apply counts_eq; cbn -[Nat.sub]; lia.
  Qed.
  Lemma mul_count st ann val st' r : syn_multiply B st ann val = Some (st', r) ->
    (exists a b c, r = Ok (a, b, c, false) /\ grows st st' [EvMul a b c None]) /\ same_frame st st'.
  Proof.
    unfold syn_multiply. cbn. intro H. injection H as <- <-. split; [|unfold same_frame; auto].
    eexists _, _, _. split; [reflexivity|]. unfold grows, wires, pend; cbn -[Nat.sub]. split; [|lia].
    destruct (cs_current (backend st)). apply counts_eq; cbn -[Nat.sub]; lia.
  Qed.
  Lemma grows_trans st st1 st2 t1 t2 : grows st st1 t1 -> grows st1 st2 t2 -> grows st st2 (t1 ++ t2).
  Proof.
    intros [E1 [V1 L1]] [E2 [V2 L2]]. split; [|unfold wires in *; rewrite count_allocs_app, count_gates_app; lia]. rewrite E2, E1, counts_assoc. f_equal.
    unfold counts_add. cbn. apply counts_eq; rewrite ?count_allocs_app, ?count_gates_app, ?trace_lcs_app, ?app_length; lia.
  Qed.
  Lemma input_count st ann val st' r : syn_alloc_input B st ann val = Some (st', r) ->
    (exists x, r = Ok (x, true) /\ grows st st' [EvInput x None]) /\ same_frame st st'.
  Proof.
    unfold syn_alloc_input. intro H. oinva H as [s1 r1]. destruct (alloc_count _ _ _ _ _ E) as [(x & -> & G1) F1].
    oinva H as s2. destruct (enforce_count _ _ _ E0) as [G2 F2]. cbn in H. injection H as <- <-.
    split.
    - exists x. split; [reflexivity|]. pose proof (grows_trans _ _ _ _ _ G1 G2) as [G3 G4]. split; [exact G3|exact G4].
    - unfold same_frame in *. cbn. intuition congruence.
  Qed.

  (** totals over the open frames *)
  Lemma run_count {A} (q : Prog F A) : forall d st st' a bn bs ln ls c0,
    balanced d q -> syn_run B q st = Some (st', a) ->
    cs_namespace (backend st) = bn ++ ln -> length ln = d ->
    cs_stack (backend st) = bs ++ ls -> length ls = d ->
    c0 = counts_add (cs_current (backend st)) (sum ls) ->
    exists tr, Exec q tr (Some a) /\
      cs_namespace (backend st') = bn /\ cs_stack (backend st') = bs /\
      cs_current (backend st') = counts_add c0
        (mkCounts (count_allocs tr) (count_gates tr) (sn st' - sn st) (length (trace_lcs tr))) /\
      wires st st' tr /\
      Forall (fun ev => match ev with EvAlloc _ None | EvInput _ None | EvMul _ _ _ None | EvLC _ => True | _ => False end) tr.
  Proof.
    assert (Step : forall st st1 st' (bn : list string) bs tr (ev : event F) c0 c1, grows st st1 [ev] ->
      c1 = counts_add c0 (mkCounts (count_allocs [ev]) (count_gates [ev]) (sn st1 - sn st) (length (trace_lcs [ev]))) ->
      cs_namespace (backend st') = bn /\ cs_stack (backend st') = bs /\
      cs_current (backend st') = counts_add c1
        (mkCounts (count_allocs tr) (count_gates tr) (sn st' - sn st1) (length (trace_lcs tr))) /\ wires st1 st' tr ->
      cs_namespace (backend st') = bn /\ cs_stack (backend st') = bs /\
      cs_current (backend st') = counts_add c0
        (mkCounts (count_allocs (ev :: tr)) (count_gates (ev :: tr)) (sn st' - sn st) (length (trace_lcs (ev :: tr)))) /\ wires st st' (ev :: tr)).
    { intros st st1 st' bn bs tr ev c0 c1 [_ [V L]] -> (H1 & H2 & H3 & V4 & H4). split; [exact H1|]. split; [exact H2|].
      split; [|unfold wires in *; change (ev :: tr) with ([ev] ++ tr); rewrite count_allocs_app, count_gates_app; lia]. rewrite H3, counts_assoc. f_equal. change (ev :: tr) with ([ev] ++ tr).
      unfold counts_add. cbn [allocations mult_constraints total_mults total_lcs].
      apply counts_eq; rewrite ?count_allocs_app, ?count_gates_app, ?trace_lcs_app, ?app_length; lia. }
    assert (Swap : forall c d (l : list Counts), counts_add (counts_add c d) (sum l) = counts_add (counts_add c (sum l)) d).
    { intros. rewrite !counts_assoc. f_equal. apply counts_comm. }
    induction q as [a0| |ann val k IH|ann val k IH|lc k IH|ann val k IH|nm k IH|k IH];
      intros d st st' a bn bs ln ls c0 W H En El Es Els Ec; cbn [syn_run balanced] in *.
    - injection H as <- <-. rewrite W in El, Els. destruct ln; [|discriminate El]. destruct ls; [|discriminate Els].
      rewrite app_nil_r in En, Es. exists []. split; [constructor|]. split; [exact En|]. split; [exact Es|]. split; [|split; [unfold wires; simpl; lia|constructor]].
      rewrite Ec, Nat.sub_diag. cbn. destruct (cs_current (backend st)). apply counts_eq; cbn -[Nat.sub]; lia.
    - discriminate H.
    - oinva H as [s1 r]. destruct (alloc_count _ _ _ _ _ E) as [(x & -> & G1) (F1 & F2 & F3)].
      destruct (IH (Ok (x, false)) d s1 st' a bn bs ln ls (counts_add (cs_current (backend s1)) (sum ls)) (W (Ok (x, false))) H) as (tr & Ht & H1 & H2 & H3 & H4 & H5);
        [congruence|exact El|congruence|exact Els|reflexivity|].
      exists (EvAlloc x None :: tr). split; [econstructor; exact Ht|].
      destruct (Step st s1 st' bn bs tr (EvAlloc x None) c0 (counts_add (cs_current (backend s1)) (sum ls))) as (S1 & S2 & S3 & S4);
        [exact G1|rewrite (proj1 G1), Swap, Ec; reflexivity|auto|].
      split; [exact S1|]. split; [exact S2|]. split; [exact S3|]. split; [exact S4|]. constructor; [exact I|exact H5].
    - oinva H as [s1 r]. destruct (input_count _ _ _ _ _ E) as [(x & -> & G1) (F1 & F2 & F3)].
      destruct (IH (Ok (x, true)) d s1 st' a bn bs ln ls (counts_add (cs_current (backend s1)) (sum ls)) (W (Ok (x, true))) H) as (tr & Ht & H1 & H2 & H3 & H4 & H5);
        [congruence|exact El|congruence|exact Els|reflexivity|].
      exists (EvInput x None :: tr). split; [econstructor; exact Ht|].
      destruct (Step st s1 st' bn bs tr (EvInput x None) c0 (counts_add (cs_current (backend s1)) (sum ls))) as (S1 & S2 & S3 & S4);
        [exact G1|rewrite (proj1 G1), Swap, Ec; reflexivity|auto|].
      split; [exact S1|]. split; [exact S2|]. split; [exact S3|]. split; [exact S4|]. constructor; [exact I|exact H5].
    - oinva H as s1. destruct (enforce_count _ _ _ E) as [G1 (F1 & F2 & F3)].
      destruct (IH d s1 st' a bn bs ln ls (counts_add (cs_current (backend s1)) (sum ls)) W H) as (tr & Ht & H1 & H2 & H3 & H4 & H5);
        [congruence|exact El|congruence|exact Els|reflexivity|].
      exists (EvLC lc :: tr). split; [econstructor; exact Ht|].
      destruct (Step st s1 st' bn bs tr (EvLC lc) c0 (counts_add (cs_current (backend s1)) (sum ls))) as (S1 & S2 & S3 & S4);
        [exact G1|rewrite (proj1 G1), Swap, Ec; reflexivity|auto|].
      split; [exact S1|]. split; [exact S2|]. split; [exact S3|]. split; [exact S4|]. constructor; [exact I|exact H5].
    - oinva H as [s1 r]. destruct (mul_count _ _ _ _ _ E) as [(x & y & z & -> & G1) (F1 & F2 & F3)].
      destruct (IH (Ok (x, y, z, false)) d s1 st' a bn bs ln ls (counts_add (cs_current (backend s1)) (sum ls)) (W (Ok (x, y, z, false))) H) as (tr & Ht & H1 & H2 & H3 & H4 & H5);
        [congruence|exact El|congruence|exact Els|reflexivity|].
      exists (EvMul x y z None :: tr). split; [econstructor; exact Ht|].
      destruct (Step st s1 st' bn bs tr (EvMul x y z None) c0 (counts_add (cs_current (backend s1)) (sum ls))) as (S1 & S2 & S3 & S4);
        [exact G1|rewrite (proj1 G1), Swap, Ec; reflexivity|auto|].
      split; [exact S1|]. split; [exact S2|]. split; [exact S3|]. split; [exact S4|]. constructor; [exact I|exact H5].
    - cbn in H.
      edestruct (IH (S d) _ st' a bn bs (ln ++ [nm]) (ls ++ [cs_current (backend st)]) c0 W H) as (tr & Ht & R);
        cbn; rewrite ?En, ?Es, ?app_assoc, ?app_length; simpl; try reflexivity; try lia.
      { rewrite Ec, sum_app, counts_0_l. simpl. rewrite counts_comm. f_equal.
        destruct (cs_current (backend st)). apply counts_eq; cbn -[Nat.sub]; lia. }
      exists tr. split; [constructor; exact Ht|exact R].
    - destruct W as (d' & -> & W). oinva H as b. cbn in E. unfold cnt_pop in E.
      destruct (@exists_last _ ln) as (ln' & node & ->); [intros ->; discriminate El|].
      destruct (@exists_last _ ls) as (ls' & parent & ->); [intros ->; discriminate Els|].
      rewrite app_length in El, Els. simpl in El, Els. rewrite app_assoc in En, Es.
      assert (Epop : forall X (l : list X) x, vec_pop (l ++ [x]) = Some (l, x)).
      { intros X l x. unfold vec_pop. rewrite rev_app_distr. simpl. rewrite rev_involutive. reflexivity. }
      rewrite En, Es, !Epop in E. cbn [obind] in E. oinva E as path. injection E as <-.
      edestruct (IH d' _ st' a bn bs ln' ls' c0 W H) as (tr & Ht & R); cbn; try reflexivity; try lia.
      { rewrite Ec, sum_app. simpl. destruct (cs_current (backend st)) as [a1 a2 a3 a4], parent as [b1 b2 b3 b4], (sum ls') as [e1 e2 e3 e4].
        apply counts_eq; cbn -[Nat.sub]; lia. }
      exists tr. split; [constructor; exact Ht|exact R].
  Qed.

  Lemma find_insert m k c : find_count k (map_insert m k c) = Some c.
  Proof. unfold find_count, map_insert. simpl. rewrite String.eqb_refl. reflexivity. Qed.

  Lemma syn_run_pbind {A C} (q : Prog F A) (k : A -> Prog F C) : forall st,
    syn_run B (pbind q k) st = obind (syn_run B q st) (fun '(s, a) => syn_run B (k a) s).
  Proof.
    induction q as [a0| |ann val kk IH|ann val kk IH|lc kk IH|ann val kk IH|nm kk IH|kk IH]; intro st; cbn [syn_run pbind]; auto.
    - destruct (syn_alloc B st ann val) as [[s r]|]; cbn [obind]; auto.
    - destruct (syn_alloc_input B st ann val) as [[s r]|]; cbn [obind]; auto.
    - destruct (syn_enforce_zero B st lc) as [s|]; cbn [obind]; auto.
    - destruct (syn_multiply B st ann val) as [[s r]|]; cbn [obind]; auto.
    - destruct (b_push_namespace B (backend st) nm) as [s|]; cbn [obind]; auto.
    - destruct (b_pop_namespace B (backend st)) as [s|]; cbn [obind]; auto.
  Qed.

  (** a namespace: the entry recorded, and what it adds to the enclosing one *)
  Lemma namespace_count {A} name (m : CS F A) st st' r : balanced 0 m ->
    syn_run B (namespace name m) st = Some (st', r) ->
    exists tr, Exec m tr (Some r) /\
      let added := mkCounts (count_allocs tr) (count_gates tr) (sn st' - sn st) (length (trace_lcs tr)) in
      find_count (join_path (cs_namespace (backend st) ++ [name])) (cs_counts (backend st')) = Some added /\
      cs_current (backend st') = counts_add (cs_current (backend st)) added /\
      cs_namespace (backend st') = cs_namespace (backend st) /\
      cs_stack (backend st') = cs_stack (backend st).
  Proof.
    intros W H. unfold namespace in H. cbn [syn_run] in H. cbn [count_backend b_push_namespace cnt_push obind] in H.
    rewrite syn_run_pbind in H. oinva H as [s1 a].
    edestruct (run_count m 0 _ s1 a (cs_namespace (backend st) ++ [name]) (cs_stack (backend st) ++ [cs_current (backend st)])
      [] [] counts0 W E) as (tr & Ht & H1 & H2 & H3 & H4 & H5); cbn; rewrite ?app_nil_r; try reflexivity.
    cbn [syn_run] in H. oinva H as b. cbn in E0. unfold cnt_pop in E0.
    assert (Epop : forall X (l : list X) x, vec_pop (l ++ [x]) = Some (l, x)).
    { intros X l x. unfold vec_pop. rewrite rev_app_distr. simpl. rewrite rev_involutive. reflexivity. }
    rewrite H1, H2, !Epop in E0. cbn [obind] in E0. oinva E0 as path. injection E0 as <-. injection H as <- <-.
    exists tr. split; [exact Ht|]. cbn. unfold compute_path in E1. destruct (has_slash name); [discriminate E1|].
    injection E1 as <-. rewrite find_insert, H3, counts_0_l. split; [reflexivity|]. split; [apply counts_comm|]. auto.
  Qed.

  Lemma constraint_count_total circuit m : (forall one, balanced 0 (circuit one)) ->
    @constraint_count F circuit = Some (Ok m) ->
    exists tr, Exec (circuit (VA 1)) tr (Some (Ok tt)) /\
      Forall (fun ev => match ev with EvAlloc _ None | EvInput _ None | EvMul _ _ _ None | EvLC _ => True | _ => False end) tr /\
      find_count "" m = Some (mkCounts (count_allocs tr + 1) (count_gates tr)
                          (count_gates tr + (count_allocs tr + 2) / 2) (length (trace_lcs tr) + 1)).
  Proof.
    intros W H. unfold constraint_count in H. oinva H as [s r]. destruct r as [[]|e]; [|discriminate H].
    injection H as <-. rewrite find_insert.
    unfold basic_synthesize in E. oinva E as [s1 r1]. destruct (input_count _ _ _ _ _ E0) as [(x & -> & G1) (F1 & F2 & F3)].
    assert (x = VA 1).
    { unfold syn_alloc_input in E0. cbn in E0. injection E0 as _ <-. reflexivity. }
    subst x.
    destruct (run_count (circuit (VA 1)) 0 s1 s (Ok tt) [] [] [] [] (counts_add (cs_current (backend s1)) (sum [])) (W (VA 1)) E) as (tr & Ht & H1 & H2 & H3 & (V & L) & H5);
      try reflexivity.
    { rewrite F1. reflexivity. }
    { rewrite F2. reflexivity. }
    exists tr. split; [exact Ht|]. split; [exact H5|]. f_equal. rewrite H3, (proj1 G1).
    destruct G1 as [_ [V1 _]]. cbn in V1. unfold pend in *. cbn in V1. cbn -[Nat.div Nat.sub]. unfold counts_add. cbn -[Nat.div Nat.sub]. apply counts_eq; try lia.
    assert (Hs : 2 * sn s = (match current_variable s with Some _ => 1 | None => 0 end) + count_allocs tr + 1 + 2 * count_gates tr).
    { destruct (current_variable s1), (current_variable s); lia. }
    rewrite <- (Nat.div_unique (count_allocs tr + 2) 2 (sn s - count_gates tr)
       (match current_variable s with Some _ => 0 | None => 1 end)); destruct (current_variable s); lia.
  Qed.
End Count.
