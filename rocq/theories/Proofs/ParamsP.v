(** Commitments, openings, and the two evaluations of s(X, Y). *)
From Coq Require Import ZArith String List Bool Arith Lia Ring Field.
From Verif Require Import Lib.AbGroup Model.FieldTrait Model.Circuits Model.Synthesis Model.Dev Model.Curve Model.Threads Model.Util
  Model.Params Spec.FieldLaws Spec.CircuitSpec Spec.CurveSpec Spec.CurveLaws Spec.UtilSpec Spec.SystemSpec Proofs.FieldGen
  Proofs.LcP Proofs.CurveTop Proofs.SumP Proofs.MultiexpP Proofs.PolyMulP Proofs.SystemP.
From Verif Require Export Spec.RandomSpec.
Import ListNotations.
Open Scope nat_scope.
Open Scope list_scope.

Section Field_.
  Context {F : Field} {p v} (OL : OpsLaws F p v).
  Add Field Ff : (ffield OL).
  Notation "a [+] b" := (fadd a b) (at level 50, left associativity). Notation "a [*] b" := (fmul a b) (at level 40, left associativity).

  (** *** Horner-like evaluation *)
  Lemma eval_cons (c : F) a x : eval_at (c :: a) x = c [+] x [*] eval_at a x.
  Proof.
    unfold eval_at. cbn [length]. rewrite (fsum_S_l OL), <- (fsum_mul_l OL). cbn [fpow]. change (coeff (c :: a) 0) with c.
    f_equal; [ring|]. apply fsum_ext. intros i _. change (coeff (c :: a) (S i)) with (coeff a i). cbn [fpow]. ring.
  Qed.
  Lemma eval_nil (x : F) : eval_at [] x = fzero. Proof. reflexivity. Qed.
  Lemma eval_app (a b : list F) x : eval_at (a ++ b) x = eval_at a x [+] fpow x (length a) [*] eval_at b x.
  Proof.
    induction a as [|c a IH]; cbn [app length].
    - rewrite eval_nil. cbn [fpow]. ring.
    - rewrite !eval_cons, IH. cbn [fpow]. ring.
  Qed.
  Lemma eval_repeat n (x : F) : eval_at (repeat fzero n) x = fzero.
  Proof. induction n as [|n IH]; [reflexivity|]. cbn [repeat]. rewrite eval_cons, IH. ring. Qed.
  Lemma eval_map_mul (a : list F) c x : eval_at (map (fun t => t [*] c) a) x = eval_at a x [*] c.
  Proof. induction a as [|d a IH]; cbn [map]; [rewrite !eval_nil; ring|]. rewrite !eval_cons, IH. ring. Qed.
  Lemma opening_loop (l : list F) x : forall acc cur,
    fold_left (fun '(acc, cur) v => let tmp := cur [*] v in (acc [+] tmp, cur [*] x)) l (acc, cur)
    = (acc [+] cur [*] eval_at l x, cur [*] fpow x (length l)).
  Proof.
    induction l as [|c l IH]; intros acc cur; cbn [fold_left length].
    - rewrite eval_nil. cbn [fpow]. f_equal; ring.
    - cbv zeta. rewrite IH, eval_cons. cbn [fpow]. f_equal; ring.
  Qed.

  (** *** Linear forms over positions 1, 2, ... *)
  Definition lin (l : list F) (f : nat -> F) : F := fsum (fun i => coeff l i [*] f (S i)) (length l).
  Lemma lin_snoc l c f : lin (l ++ [c]) f = lin l f [+] c [*] f (S (length l)).
  Proof.
    unfold lin. rewrite app_length. cbn [length]. rewrite Nat.add_1_r. cbn [fsum]. f_equal.
    - apply fsum_ext. intros i Hi. unfold coeff. rewrite app_nth1 by exact Hi. reflexivity.
    - unfold coeff. rewrite app_nth2, Nat.sub_diag by lia. reflexivity.
  Qed.
  Lemma lin_cons c l f : lin (c :: l) f = c [*] f 1 [+] lin l (fun i => f (S i)).
  Proof. unfold lin. cbn [length]. rewrite (fsum_S_l OL). reflexivity. Qed.
  Lemma lin_ext l f g : (forall i, 1 <= i <= length l -> f i = g i) -> lin l f = lin l g.
  Proof. intro H. unfold lin. apply fsum_ext. intros i Hi. rewrite H by lia. reflexivity. Qed.
  Lemma lin_put i x : forall (l : list F) f, 1 <= i <= length l -> lin (put i x l) f = lin l f [+] fsub x (wire l i) [*] f i.
  Proof.
    unfold put, wire. destruct i as [|i]; [intros; lia|]. rewrite Nat.sub_succ, Nat.sub_0_r.
    induction i as [|i IH]; intros [|c l] f H; cbn [length] in H; try lia.
    - cbn [firstn skipn app nth]. rewrite !lin_cons. ring.
    - cbn [firstn app nth]. change (skipn (S (S i)) (c :: l)) with (skipn (S i) l).
      rewrite !lin_cons, IH by lia. ring.
  Qed.
  Lemma lin_repeat n f : lin (repeat fzero n) f = fzero.
  Proof.
    unfold lin. apply (fsum_zero OL). intros i Hi. unfold coeff. replace (nth i (repeat fzero n) fzero) with (@fzero F); [ring|].
    symmetry. rewrite repeat_length in Hi. apply nth_repeat.
  Qed.
  Lemma lin_app l m f : lin (l ++ m) f = lin l f [+] lin m (fun i => f (length l + i)%nat).
  Proof.
    revert f. induction l as [|c l IH]; intro f; cbn [app length].
    - change (lin [] f) with (@fzero F). change (lin m (fun i => f (0 + i)%nat)) with (lin m f). ring.
    - rewrite !lin_cons, IH. cbn [Nat.add]. ring.
  Qed.
  Lemma lin_eval l x : lin l (fpow x) = x [*] eval_at l x.
  Proof.
    unfold lin, eval_at. rewrite <- (fsum_mul_l OL). apply fsum_ext. intros i _. cbn [fpow]. ring.
  Qed.
  (** reversed: position i from the end *)
  Lemma eval_rev_lin (l : list F) x xi : x [*] xi = fone -> eval_at (rev l) x = fpow x (length l) [*] lin l (fpow xi).
  Proof.
    intro Hx. assert (P : forall n, fpow x n [*] fpow xi n = fone).
    { intro n. rewrite <- (fpow_distr OL), Hx. apply (fpow_one OL). }
    induction l as [|c l IH] using rev_ind.
    - rewrite eval_nil. unfold lin. cbn. ring.
    - rewrite rev_app_distr. cbn [rev app]. rewrite eval_cons, IH, lin_snoc, app_length. cbn [length].
      rewrite Nat.add_1_r. specialize (P (S (length l))).
      set (A := fpow x (S (length l))) in *. set (B := fpow xi (S (length l))) in *.
      transitivity (c [*] (A [*] B) [+] A [*] lin l (fpow xi)); [|ring]. rewrite P. unfold A. cbn [fpow]. ring.
  Qed.
  Definition total (u w z : list F) (f : assignment F) : F :=
    lin u (fun i => f (VA i)) [+] lin w (fun i => f (VB i)) [+] lin z (fun i => f (VC i)).

  (** *** sx *)
  Definition s_sum (lcs : list (LC F)) (y : F) (f : assignment F) : F :=
    sum_q (fun q => fpow y q [*] lc_val f (lc_number lcs q)) (length lcs).
  Lemma s_sum_snoc lcs lc y f : s_sum (lcs ++ [lc]) y f = s_sum lcs y f [+] fpow y (S (length lcs)) [*] lc_val f lc.
  Proof.
    unfold s_sum, sum_q. rewrite app_length. cbn [length]. rewrite Nat.add_1_r. cbn [fsum]. f_equal.
    - apply fsum_ext. intros i Hi. unfold lc_number. rewrite app_nth1 by lia. reflexivity.
    - unfold lc_number. rewrite Nat.sub_succ, Nat.sub_0_r, app_nth2, Nat.sub_diag by lia. reflexivity.
  Qed.
  Lemma add_at_eq (l : list F) i t : 1 <= i <= length l -> add_at l i t = Some (put i (wire l i [+] t) l).
  Proof. intro H. unfold add_at. rewrite vec_get_wire by exact H. cbn [obind]. apply vec_set_put, H. Qed.

  Definition sxI (y : F) (s : SxEval F) (g : nat) (lcs : list (LC F)) (_ : list nat) : Prop :=
    sx_y s = y /\ sx_cur_y s = fpow y (length lcs) /\ length (sx_u s) = g /\ length (sx_v s) = g /\ length (sx_w s) = g /\
    forall f, total (sx_u s) (sx_v s) (sx_w s) f = s_sum lcs y f.

  Lemma sx_insert_all y (cy : F) g lc : Forall (fun t => within g (fst t) = true) lc -> forall s : SxEval F,
    sx_y s = y -> length (sx_u s) = g -> length (sx_v s) = g -> length (sx_w s) = g ->
    exists s', insert_all (sx_backend F) s lc cy = Some s' /\ sx_y s' = y /\ sx_cur_y s' = sx_cur_y s /\
      length (sx_u s') = g /\ length (sx_v s') = g /\ length (sx_w s') = g /\
      forall f, total (sx_u s') (sx_v s') (sx_w s') f = total (sx_u s) (sx_v s) (sx_w s) f [+] cy [*] lc_val f lc.
  Proof.
    induction 1 as [|[x c] lc Hx HL IH]; intros s Hy Hu Hv Hw; cbn [insert_all].
    - exists s. repeat (split; [first [reflexivity|assumption]|]). intro f. cbn [lc_val]. ring.
    - cbn [b_insert_coefficient sx_backend]. unfold sx_insert. rewrite (coeff_multiply_val OL). cbn [fst] in Hx. apply within_iff in Hx.
      destruct x as [i|i|i].
      + rewrite add_at_eq by lia. cbn [option_map obind].
        destruct (IH (mkSx (sx_y s) (sx_cur_y s) (put i (wire (sx_u s) i [+] coeff_val c [*] cy) (sx_u s)) (sx_v s) (sx_w s))) as (s' & E & E1 & E2 & E3 & E4 & E5 & E6);
          cbn [sx_y sx_cur_y sx_u sx_v sx_w] in *; try rewrite put_length by lia; try assumption.
        exists s'. repeat (split; [assumption|]). intro f. rewrite E6. unfold total. cbn [lc_val]. rewrite lin_put by lia. ring.
      + rewrite add_at_eq by lia. cbn [option_map obind].
        destruct (IH (mkSx (sx_y s) (sx_cur_y s) (sx_u s) (put i (wire (sx_v s) i [+] coeff_val c [*] cy) (sx_v s)) (sx_w s))) as (s' & E & E1 & E2 & E3 & E4 & E5 & E6);
          cbn [sx_y sx_cur_y sx_u sx_v sx_w] in *; try rewrite put_length by lia; try assumption.
        exists s'. repeat (split; [assumption|]). intro f. rewrite E6. unfold total. cbn [lc_val]. rewrite lin_put by lia. ring.
      + rewrite add_at_eq by lia. cbn [option_map obind].
        destruct (IH (mkSx (sx_y s) (sx_cur_y s) (sx_u s) (sx_v s) (put i (wire (sx_w s) i [+] coeff_val c [*] cy) (sx_w s)))) as (s' & E & E1 & E2 & E3 & E4 & E5 & E6);
          cbn [sx_y sx_cur_y sx_u sx_v sx_w] in *; try rewrite put_length by lia; try assumption.
        exists s'. repeat (split; [assumption|]). intro f. rewrite E6. unfold total. cbn [lc_val]. rewrite lin_put by lia. ring.
  Qed.
  Lemma sx_quiet y N : Quiet (sx_backend F) N (sxI y).
  Proof.
    constructor; try (intros; eexists; reflexivity); try reflexivity.
    - intros s g l i ann (Hy & Hc & Hu & Hv & Hw & HT). eexists. split; [reflexivity|].
      unfold sxI. cbn [sx_y sx_cur_y sx_u sx_v sx_w]. rewrite !app_length, Hu, Hv, Hw. cbn [length].
      repeat (split; [first [assumption|lia]|]). intro f. rewrite <- (HT f). unfold total. rewrite !lin_snoc. ring.
    - intros s g l i ann lc (Hy & Hc & Hu & Hv & Hw & HT) _ HL.
      set (cy := sx_cur_y s [*] sx_y s).
      destruct (sx_insert_all y cy g lc HL (mkSx (sx_y s) cy (sx_u s) (sx_v s) (sx_w s)) Hy Hu Hv Hw) as (s' & E & E1 & E2 & E3 & E4 & E5 & E6).
      exists (mkSx (sx_y s) cy (sx_u s) (sx_v s) (sx_w s)), cy, s'. split; [reflexivity|]. split; [exact E|].
      cbn [sx_y sx_cur_y sx_u sx_v sx_w] in *.
      assert (Ecy : cy = fpow y (S (length l))) by (unfold cy; rewrite Hc, Hy; cbn [fpow]; ring).
      unfold sxI. rewrite E2, app_length. cbn [length]. rewrite Nat.add_1_r. repeat (split; [assumption|]).
      intro f. rewrite E6, HT, s_sum_snoc, Ecy. reflexivity.
    - intros s g l i v0 H. eexists. split; [reflexivity|exact H].
  Qed.
  Lemma sx_run y circuit s : laid_out false circuit s ->
    exists e, synthesize (sx_backend F) (sx_new y) circuit = Done (Ok e) /\ sxI y e (l_gates s) (l_lcs s) (l_inputs s).
  Proof.
    intro H. apply (quiet_synthesize _ (l_gates s) _ (sx_quiet y _) (sx_new y) circuit s); [|exact H|exact (le_n _)].
    unfold sxI, sx_new. cbn [sx_y sx_cur_y sx_u sx_v sx_w length]. repeat (split; [reflexivity|]). intro f. unfold total, s_sum, lin, sum_q. cbn. ring.
  Qed.

  (** the coefficient vector *)
  Definition sx_vec (n : nat) (u w z : list F) : list F := rev (resize u n) ++ [fzero] ++ resize w n ++ resize z n.
  Lemma resize_app (l : list F) n : length l <= n -> resize l n = l ++ repeat fzero (n - length l).
  Proof. intro H. unfold resize. rewrite firstn_all2 by exact H. reflexivity. Qed.
  Lemma lin_resize (l : list F) n f : length l <= n -> lin (resize l n) f = lin l f.
  Proof. intro H. rewrite resize_app by exact H. rewrite lin_app, lin_repeat. ring. Qed.
  Lemma resize_len (l : list F) n : length (resize l n) = n.
  Proof. unfold resize. rewrite app_length, firstn_length, repeat_length. lia. Qed.
  Lemma sx_vec_length n u w z : length (sx_vec n u w z) = 3 * n + 1.
  Proof. unfold sx_vec. rewrite !app_length, rev_length, !resize_len. cbn [length]. lia. Qed.
  Lemma sx_vec_eval n u w z x xi : length u <= n -> length w <= n -> length z <= n -> x [*] xi = fone ->
    eval_at (sx_vec n u w z) x = fpow x n [*] total u w z (monomials n x xi).
  Proof.
    intros Hu Hw Hz Hx. unfold sx_vec. rewrite !eval_app, rev_length, resize_len.
    rewrite (eval_rev_lin _ x xi Hx), resize_len, (lin_resize u) by exact Hu.
    rewrite (eval_cons fzero [] x), eval_nil. cbn [length]. rewrite (fpow_1 OL), resize_len.
    unfold total. cbn [monomials].
    assert (E1 : lin w (fun i => fpow x i) = x [*] eval_at (resize w n) x).
    { rewrite <- lin_eval, lin_resize by exact Hw. reflexivity. }
    assert (E2 : lin z (fun i => fpow x (i + n)%nat) = fpow x n [*] (x [*] eval_at (resize z n) x)).
    { rewrite <- lin_eval, lin_resize by exact Hz. unfold lin. rewrite <- (fsum_mul_l OL). apply fsum_ext. intros i _. rewrite (fpow_add OL). ring. }
    rewrite E1, E2. change (lin u (fun i => fpow xi i)) with (lin u (fpow xi)). ring.
  Qed.

  (** *** sy *)
  Lemma fill_powers_eq (x tmp : F) n : fill_powers x tmp n = (map (fun i => tmp [*] fpow x (S i)) (seq 0 n), tmp [*] fpow x n).
  Proof.
    revert tmp. induction n as [|n IH]; intro tmp; cbn [fill_powers].
    - cbn. f_equal. ring.
    - rewrite IH. cbn [seq map fpow]. rewrite <- seq_shift, map_map. f_equal; [f_equal; [ring|]|ring].
      apply map_ext. intro i. cbn [fpow]. ring.
  Qed.
  Lemma fill_get (t : nat -> F) n i : 1 <= i <= n -> vec_get (map (fun i => t (S i)) (seq 0 n)) i = Some (t i).
  Proof.
    intro H. rewrite vec_get_wire by (rewrite map_length, seq_length; exact H). f_equal. unfold wire. destruct i as [|i]; [lia|].
    rewrite Nat.sub_succ, Nat.sub_0_r. rewrite (nth_indep _ _ (t (S 0))) by (rewrite map_length, seq_length; lia).
    rewrite (map_nth (fun i => t (S i))), seq_nth by lia. reflexivity.
  Qed.
  Definition syI (n : nat) (x xi : F) (s : SyEval F) (_ : nat) (lcs : list (LC F)) (_ : list nat) : Prop :=
    (forall z, within n z = true -> var_get (sy_a s) (sy_b s) (sy_c s) z = Some (monomials n x xi z)) /\
    sy_poly s = fzero :: map (lc_val (monomials n x xi)) lcs.

  Lemma sy_insert_all n x xi g lc : g <= n -> Forall (fun t => within g (fst t) = true) lc -> forall (s : SyEval F) init acc,
    (forall z, within n z = true -> var_get (sy_a s) (sy_b s) (sy_c s) z = Some (monomials n x xi z)) ->
    sy_poly s = init ++ [acc] ->
    exists s', insert_all (sy_backend F) s lc (length init) = Some s' /\ sy_a s' = sy_a s /\ sy_b s' = sy_b s /\ sy_c s' = sy_c s /\
      sy_poly s' = init ++ [acc [+] lc_val (monomials n x xi) lc].
  Proof.
    intros Hg HL. induction HL as [|[z c] lc Hz HL IH]; intros s init acc HV HP; cbn [insert_all].
    - exists s. repeat (split; [reflexivity|]). rewrite HP. cbn [lc_val]. do 2 f_equal. ring.
    - cbn [b_insert_coefficient sy_backend]. unfold sy_insert. cbn [fst] in Hz.
      rewrite (HV z (within_mono g n z Hg Hz)). cbn [obind]. rewrite (coeff_multiply_val OL), HP.
      rewrite add_at_eq by (rewrite app_length; cbn [length]; lia). cbn [option_map obind].
      assert (EW : wire (init ++ [acc]) (S (length init)) = acc).
      { unfold wire. rewrite Nat.sub_succ, Nat.sub_0_r, app_nth2, Nat.sub_diag by lia. reflexivity. }
      rewrite EW.
      assert (EP : forall t, put (S (length init)) t (init ++ [acc]) = init ++ [t]).
      { intro t. pose proof (vec_set_put (S (length init)) t (init ++ [acc])) as P. rewrite app_length in P. cbn [length] in P.
        specialize (P ltac:(lia)). rewrite (vec_set_last init acc t (length init) eq_refl) in P. congruence. }
      rewrite EP.
      destruct (IH (mkSy (sy_a s) (sy_b s) (sy_c s) (init ++ [acc [+] coeff_val c [*] monomials n x xi z])) init _ HV eq_refl) as (s' & E & E1 & E2 & E3 & E4).
      exists s'. split; [exact E|]. repeat (split; [assumption|]). rewrite E4. cbn [lc_val]. do 2 f_equal. ring.
  Qed.
  Lemma sy_quiet n x xi : Quiet (sy_backend F) n (syI n x xi).
  Proof.
    constructor; try (intros; eexists; reflexivity); try reflexivity.
    - intros s g l i ann H. eexists. split; [reflexivity|exact H].
    - intros s g l i ann lc (HV & HP) Hg HL.
      destruct (sy_insert_all n x xi g lc Hg HL (mkSy (sy_a s) (sy_b s) (sy_c s) (sy_poly s ++ [fzero])) (sy_poly s) fzero HV eq_refl) as (s' & E & E1 & E2 & E3 & E4).
      exists (mkSy (sy_a s) (sy_b s) (sy_c s) (sy_poly s ++ [fzero])), (length (sy_poly s)), s'.
      split; [reflexivity|]. split; [exact E|]. cbn [sy_a sy_b sy_c] in *. unfold syI. rewrite E1, E2, E3. split; [exact HV|].
      rewrite E4, HP, map_app. cbn [map app]. do 3 f_equal. ring.
    - intros s g l i v0 H. eexists. split; [reflexivity|exact H].
  Qed.
  Lemma sy_new_ok n q x xi : x [*] xi = fone -> f_invert x = Some xi ->
    exists s, sy_new x n q = Some s /\ syI n x xi s 0 [] [].
  Proof.
    intros Hx Hi. unfold sy_new. rewrite Hi. cbn [obind]. rewrite !fill_powers_eq. eexists. split; [reflexivity|].
    split; [|reflexivity]. cbn [sy_a sy_b sy_c]. intros z Hz. apply within_iff in Hz. destruct z as [i|i|i]; cbn [var_get monomials].
    - rewrite (fill_get (fun i => fone [*] fpow xi i)) by exact Hz. f_equal. ring.
    - rewrite (fill_get (fun i => fone [*] fpow x i)) by exact Hz. f_equal. ring.
    - rewrite (fill_get (fun i => fone [*] fpow x n [*] fpow x i)) by exact Hz. f_equal. rewrite (fpow_add OL). ring.
  Qed.
  Lemma sy_run n q x xi circuit s : x [*] xi = fone -> f_invert x = Some xi -> laid_out false circuit s -> l_gates s <= n ->
    exists e0 e, sy_new x n q = Some e0 /\ synthesize (sy_backend F) e0 circuit = Done (Ok e) /\
      sy_poly e = fzero :: map (lc_val (monomials n x xi)) (l_lcs s).
  Proof.
    intros Hx Hi H HN. destruct (sy_new_ok n q x xi Hx Hi) as (e0 & E0 & HI).
    destruct (quiet_synthesize _ n _ (sy_quiet n x xi) e0 circuit s HI H HN) as (e & E & _ & HP). exists e0, e. auto.
  Qed.
  Lemma sy_eval n (lcs : list (LC F)) (x xi y : F) : eval_at (fzero :: map (lc_val (monomials n x xi)) lcs) y = s_value n lcs x xi y.
  Proof.
    rewrite eval_cons. unfold eval_at, s_value, sum_q. rewrite map_length.
    transitivity (y [*] fsum (fun i => coeff (map (lc_val (monomials n x xi)) lcs) i [*] fpow y i) (length lcs)); [ring|].
    rewrite <- (fsum_mul_l OL). apply fsum_ext. intros i Hi. unfold coeff, lc_number. rewrite Nat.sub_succ, Nat.sub_0_r.
    rewrite (nth_indep _ _ (lc_val (monomials n x xi) [])) by (rewrite map_length; exact Hi).
    rewrite map_nth. cbn [fpow]. ring.
  Qed.
End Field_.

Section Invert.
  Context {F : Field} {p v} (FL : FieldLaws F p v).
  Let OL := fl_ops _ _ _ FL.
  Add Field Fi : (ffield OL).
  Lemma finvert_some (a : F) : a <> fzero -> exists i, f_invert a = Some i /\ fmul a i = fone.
  Proof.
    intro H. destruct (fl_invert _ _ _ FL a) as (i & E1 & E2); [intro E; apply H, (v_eq_zero OL), E|].
    exists i. split; [exact E1|]. apply (ol_inj _ _ _ OL). rewrite (ol_mul _ _ _ OL), (ol_one _ _ _ OL). exact E2.
  Qed.
  Lemma finvert_eq (a b : F) : fmul a b = fone -> f_invert a = Some b.
  Proof.
    intro H. assert (Ha : a <> fzero). { intro E. apply (fone_neq_zero OL). rewrite <- H, E. ring. }
    destruct (finvert_some a Ha) as (i & -> & Hi). f_equal. apply (fmul_cancel_r OL i b a Ha).
    transitivity (fmul a i); [ring|]. rewrite Hi, <- H. ring.
  Qed.
  Lemma finvert_zero : f_invert (@fzero F) = None.
  Proof. apply (fl_invert_zero _ _ _ FL). apply (ol_zero _ _ _ OL). Qed.
End Invert.

Section Params_.
  Context {C : Curve} {q vb r vs} (CL : CurveLaws C q vb r vs).
  Let SL := cl_scalar _ _ _ _ _ CL.
  Let SO := fl_ops _ _ _ SL.
  Add Field Fs : (ffield SO).

  Lemma compute_sx_eq (P : Params C) circuit s (y : Scalar C) : laid_out false circuit s ->
    exists u w z, compute_sx P circuit y = Done (Ok (sx_vec (p_n P) u w z)) /\
      length u = l_gates s /\ length w = l_gates s /\ length z = l_gates s /\ forall f, total u w z f = s_sum (l_lcs s) y f.
  Proof.
    intro H. destruct (sx_run SO y circuit s H) as (e & E & _ & _ & Hu & Hv & Hw & HT).
    exists (sx_u e), (sx_v e), (sx_w e). split; [|auto]. unfold compute_sx, out_try. rewrite E. cbn [out_bind].
    fold (sx_vec (p_n P) (sx_u e) (sx_v e) (sx_w e)). rewrite sx_vec_length, Nat.eqb_refl. reflexivity.
  Qed.
  Lemma compute_sy_eq (P : Params C) circuit s (x xi : Scalar C) n Q : fmul x xi = fone -> laid_out false circuit s -> l_gates s <= n ->
    compute_sy P circuit x n Q = Done (Ok (fzero :: map (lc_val (monomials n x xi)) (l_lcs s))).
  Proof.
    intros Hx H HN.
    pose proof (finvert_eq SL x xi Hx) as Hi.
    destruct (sy_run SO n Q x xi circuit s Hx Hi H HN) as (e0 & e & E0 & E & HP).
    unfold compute_sy. rewrite E0. cbn [out_opt out_bind]. unfold out_try. rewrite E. cbn [out_bind]. rewrite HP. reflexivity.
  Qed.
  Theorem sx_sy_top (P : Params C) circuit s : laid_out false circuit s -> l_gates s <= p_n P ->
    (forall y, exists sx, compute_sx P circuit y = Done (Ok sx) /\ length sx = 3 * p_n P + 1 /\
       forall x xi, fmul x xi = fone -> eval_at sx x = fmul (fpow x (p_n P)) (s_value (p_n P) (l_lcs s) x xi y)) /\
    (forall x xi Q, fmul x xi = fone -> exists sy, compute_sy P circuit x (p_n P) Q = Done (Ok sy) /\
       length sy = S (length (l_lcs s)) /\ forall y, eval_at sy y = s_value (p_n P) (l_lcs s) x xi y).
  Proof.
    intros H HN. split.
    - intro y. destruct (compute_sx_eq P circuit s y H) as (u & w & z & E & Hu & Hw & Hz & HT). eexists. split; [exact E|].
      split; [apply sx_vec_length|]. intros x xi Hx. rewrite (sx_vec_eval SO _ _ _ _ x xi) by (assumption || lia). rewrite HT. reflexivity.
    - intros x xi Q Hx. rewrite (compute_sy_eq P circuit s x xi (p_n P) Q Hx H HN). eexists. split; [reflexivity|].
      split; [cbn [length]; rewrite map_length; reflexivity|]. intro y. apply (sy_eval SO).
  Qed.

  (** *** commit and compute_opening *)
  Lemma commit_rep M (P : Params C) gs v edge : machine_ok M -> Forall2 (rep CL) (p_generators P) gs ->
    (Z.of_nat (length (p_generators P)) < 2 ^ 32)%Z -> length v <= length (p_generators P) ->
    exists D, commit M P v edge = Some D /\
      rep CL D (zsum CL (map vs v) (if edge then skipn (length gs - length v) gs else firstn (length v) gs)).
  Proof.
    intros HM HG HZ HL. unfold commit. rewrite (proj2 (Nat.leb_le _ _)) by exact HL.
    pose proof (Forall2_len _ _ _ HG) as Hlen. destruct edge.
    - unfold slice_from. rewrite (proj2 (Nat.leb_le _ _)) by lia. cbn [obind]. rewrite <- Hlen.
      apply multiexp_rep; [exact HM| | |apply Forall2_skipn, HG]; rewrite skipn_length; lia.
    - unfold slice_to. rewrite (proj2 (Nat.leb_le _ _)) by lia. cbn [obind].
      apply multiexp_rep; [exact HM| | |apply Forall2_firstn, HG]; rewrite firstn_length; lia.
  Qed.
  Theorem commit_top M (P : Params C) As v (edge : bool) : machine_ok M -> Forall2 represents (p_generators P) As ->
    (Z.of_nat (length (p_generators P)) < 2 ^ 32)%Z -> length v <= length (p_generators P) ->
    exists D A, commit M P v edge = Some D /\ represents D A /\
      sum_of_multiples v (firstn (length v) (skipn (if edge then length (p_generators P) - length v else 0) As)) A.
  Proof.
    intros HM HG HZ HL. destruct (reps_ex CL _ _ HG) as (gs & -> & HR).
    destruct (commit_rep M P gs v edge HM HR HZ HL) as (D & E & HD).
    pose proof (Forall2_len _ _ _ HR) as Hlen.
    exists D, (cl_point _ _ _ _ _ CL (zsum CL (map vs v) (if edge then skipn (length gs - length v) gs else firstn (length v) gs))).
    split; [exact E|]. split; [exact HD|]. rewrite Hlen.
    replace (firstn (length v) (skipn (if edge then length gs - length v else 0) (map (cl_point C q vb r vs CL) gs)))
      with (map (cl_point C q vb r vs CL) (if edge then skipn (length gs - length v) gs else firstn (length v) gs)).
    - apply som_zsum; [|reflexivity]. destruct edge; rewrite ?skipn_length, ?firstn_length; lia.
    - destruct edge.
      + rewrite skipn_map, firstn_map. f_equal. rewrite firstn_all2; [reflexivity|]. rewrite skipn_length. lia.
      + cbn [skipn]. rewrite firstn_map. reflexivity.
  Qed.
  Lemma commit_panics M (P : Params C) v edge : commit M P v edge = None <-> length (p_generators P) < length v.
  Proof.
    unfold commit. destruct (Nat.leb_spec (length v) (length (p_generators P))) as [H|H]; [|tauto].
    split; [|lia]. intro E. exfalso. destruct edge.
    - unfold slice_from in E. rewrite (proj2 (Nat.leb_le _ _)) in E by lia. cbn [obind] in E.
      apply multiexp_panics in E. rewrite skipn_length in E. lia.
    - unfold slice_to in E. rewrite (proj2 (Nat.leb_le _ _)) in E by lia. cbn [obind] in E.
      apply multiexp_panics in E. rewrite firstn_length in E. lia.
  Qed.
  Lemma opening_eq (P : Params C) v (x : Scalar C) edge : (Z.of_nat (length (p_generators P)) < 2 ^ 64)%Z ->
    (edge = true -> length v <= length (p_generators P)) ->
    compute_opening P v x edge = Some (fmul (eval_at v x) (fpow x (if edge then length (p_generators P) - length v else 0))).
  Proof.
    intros HZ HL. unfold compute_opening. rewrite (opening_loop SO). destruct edge.
    - unfold usize_sub. rewrite (proj2 (Nat.leb_le _ _)) by (apply HL; reflexivity). cbn [obind].
      rewrite (pow64 SO) by lia. f_equal. ring.
    - f_equal. cbn [fpow]. ring.
  Qed.
  Theorem opening_top (P : Params C) v (x : Scalar C) (edge : bool) : (Z.of_nat (length (p_generators P)) < 2 ^ 64)%Z -> length v <= length (p_generators P) ->
    compute_opening P v x edge =
      Some (fsum (fun i => fmul (coeff v i) (fpow x ((if edge then length (p_generators P) - length v else 0) + i))) (length v)).
  Proof.
    intros HZ HL. rewrite (opening_eq P v x edge HZ (fun _ => HL)). f_equal. unfold eval_at. rewrite <- (fsum_mul_r SO).
    apply fsum_ext. intros i _. rewrite (fpow_add SO). ring.
  Qed.
End Params_.

(** *** Params::new *)
Section New.
  Context {C : Curve} {q vb r vs} (CL : CurveLaws C q vb r vs).
  Let BO := fl_ops _ _ _ (cl_base _ _ _ _ _ CL).
  Add Field Fn : (ffield BO).
  Hypothesis z_one : forall bs (Q : C), c_from_bytes bs = Some Q -> let '(_, _, z) := c_get_xyz Q in z = fone \/ c_to_bytes Q = repeat 0%Z 32.

  Lemma find_done rng : (forall j, random (rng j)) -> forall fuel at_ G xy, find_generator (C:=C) fuel rng at_ = Done (G, xy) ->
    represents G (Some xy) /\ exists j, at_ <= j /\ c_from_bytes (rng j) = Some G /\ forall i, at_ <= i < j -> c_from_bytes (c:=C) (rng i) = None.
  Proof.
    intros HR fuel. induction fuel as [|fuel IH]; intros at_ G xy H; cbn [find_generator] in H; [discriminate H|].
    destruct (c_from_bytes (rng at_)) as [Q|] eqn:E.
    - destruct (c_get_xyz Q) as [[x y] z] eqn:EQ. destruct (feqb z fone) eqn:Ez; [|discriminate H].
      apply (feqb_eq BO) in Ez. assert (Q = G /\ (x, y) = xy) as [-> <-] by (split; congruence). clear H.
      split; [|exists at_; split; [lia|]; split; [exact E|]; intros; lia].
      destruct (HR at_) as [H1 H2]. destruct (cl_encode_decode _ _ _ _ _ CL _ _ H1 H2 E) as [[A HA] _].
      unfold represents in *. rewrite EQ in *. subst z. destruct A as [[x' y']|].
      + destruct HA as (Hz & Hx & Hy & HC). assert (Ex : x = x') by (rewrite Hx; ring). assert (Ey : y = y') by (rewrite Hy; ring).
        rewrite Ex, Ey. split; [exact Hz|]. split; [ring|]. split; [ring|exact HC].
      + destruct HA as (_ & _ & HZ). destruct (fone_neq_zero BO HZ).
    - destruct (IH _ _ _ H) as (H1 & j & Hj & H2 & H3). split; [exact H1|]. exists j. split; [lia|]. split; [exact H2|].
      intros i Hi. destruct (Nat.eq_dec i at_) as [->|]; [exact E|apply H3; lia].
  Qed.
  Lemma find_panics rng : (forall j, random (rng j)) -> forall fuel at_, find_generator (C:=C) fuel rng at_ = Panicked ->
    exists j, rng j = repeat 0%Z 32.
  Proof.
    intros HR fuel. induction fuel as [|fuel IH]; intros at_ H; cbn [find_generator] in H; [discriminate H|].
    destruct (c_from_bytes (rng at_)) as [Q|] eqn:E; [|exact (IH _ H)].
    destruct (HR at_) as [H1 H2]. destruct (cl_encode_decode _ _ _ _ _ CL _ _ H1 H2 E) as [_ HB]. pose proof (z_one _ _ E) as HZ.
    destruct (c_get_xyz Q) as [[x y] z]. destruct (feqb z fone) eqn:Ez; [discriminate H|]. destruct HZ as [->|HZ].
    - rewrite (feqb_refl BO) in Ez. discriminate Ez.
    - exists at_. congruence.
  Qed.
  Lemma join_done {A} (l : list (outcome A)) : forall found, join_all l = Done found -> l = map Done found.
  Proof.
    induction l as [|o l IH]; intros found H; cbn [join_all] in H.
    - injection H as <-. reflexivity.
    - destruct o; [|destruct (join_all l); discriminate H|discriminate H]. destruct (join_all l) as [l'| |]; try discriminate H.
      assert (found = a :: l') as -> by congruence. cbn [map]. f_equal. apply IH. reflexivity.
  Qed.
  Lemma join_panics {A} (l : list (outcome A)) : join_all l = Panicked -> In Panicked l.
  Proof.
    induction l as [|o l IH]; intro H; cbn [join_all] in H; [discriminate H|].
    destruct o; [|left; reflexivity|discriminate H]. right. apply IH. destruct (join_all l); congruence.
  Qed.
  Theorem params_new_done rng fuel k P : (forall i j, random (rng i j)) -> params_new (C:=C) rng fuel k = Done P ->
    3 < k /\ p_k P = k /\ p_d P = 2 ^ k /\ 4 * p_n P = 2 ^ k /\ length (p_generators P) = 2 ^ k /\
    Forall2 (fun G xy => represents G (Some xy)) (p_generators P) (p_generators_xy P) /\
    forall i G, nth_error (p_generators P) i = Some G -> exists j, c_from_bytes (rng i j) = Some G /\ forall j', j' < j -> c_from_bytes (c:=C) (rng i j') = None.
  Proof.
    intros HR H. unfold params_new in H. destruct (Nat.ltb_spec 3 k) as [Hk|]; [|discriminate H]. split; [exact Hk|].
    destruct (join_all _) as [found| |] eqn:E; cbn [out_bind] in H; try discriminate H.
    set (PP := mkParams c_one (2 ^ k) (2 ^ k / 4) k (map fst found) (map snd found)) in H.
    assert (P = PP) as -> by congruence. clear H. unfold PP. clear PP. cbn [p_k p_d p_n p_generators p_generators_xy].
    apply join_done in E. assert (HL : length found = 2 ^ k).
    { apply (f_equal (@length _)) in E. rewrite !map_length, seq_length in E. symmetry. exact E. }
    split; [reflexivity|]. split; [reflexivity|]. split.
    { replace k with (2 + (k - 2)) by lia. rewrite Nat.pow_add_r. change (2 ^ 2) with 4. rewrite (Nat.mul_comm 4 (2 ^ (k - 2))), Nat.div_mul by lia. lia. }
    split; [rewrite map_length; exact HL|].
    assert (HI : forall i e, nth_error found i = Some e -> find_generator fuel (rng i) 0 = Done e).
    { intros i e He. pose proof (map_nth_error Done _ _ He) as X. rewrite <- E in X.
      assert (i < 2 ^ k) by (rewrite <- HL; apply nth_error_Some; congruence).
      rewrite (map_nth_error _ _ _ (d := i)) in X; [congruence|].
      rewrite (nth_error_nth' _ 0) by (rewrite seq_length; assumption). rewrite seq_nth by assumption. reflexivity. }
    split.
    - clear E HL. assert (HI' : forall i e, nth_error found i = Some e -> represents (fst e) (Some (snd e))).
      { intros i [G xy] He. apply HI in He. apply (find_done _ (HR i)) in He. apply He. }
      clear HI. induction found as [|e found IH]; cbn [map]; constructor; [apply (HI' 0); reflexivity|].
      apply IH. intros i e' He. apply (HI' (S i)). exact He.
    - intros i G HG. rewrite nth_error_map in HG. destruct (nth_error found i) as [[G' xy]|] eqn:He; [|discriminate HG].
      cbn in HG. assert (G' = G) as -> by congruence. apply HI in He. apply (find_done _ (HR i)) in He. destruct He as (_ & j & _ & H1 & H2).
      exists j. split; [exact H1|]. intros j' Hj. apply H2. lia.
  Qed.
  Theorem params_new_panics rng fuel k : (forall i j, random (rng i j)) -> params_new (C:=C) rng fuel k = Panicked ->
    k <= 3 \/ exists i j, rng i j = repeat 0%Z 32.
  Proof.
    intros HR H. unfold params_new in H. destruct (Nat.ltb_spec 3 k) as [Hk|]; [|left; assumption]. right.
    destruct (join_all _) as [found| |] eqn:E; cbn [out_bind] in H; try discriminate H.
    apply join_panics in E. apply in_map_iff in E. destruct E as (i & Ei & _). apply (find_panics _ (HR i)) in Ei. exists i. exact Ei.
  Qed.
End New.

Lemma pt_from_bytes_z F cB bs (Q : Pt F) : pt_from_bytes F cB bs = Some Q -> pz Q = fone \/ Q = pt_zero F.
Proof.
  unfold pt_from_bytes. destruct (f_from_bytes _) as [x|]; [|intro H; discriminate H].
  destruct (_ && _); [intro H; right; congruence|].
  destruct (f_sqrt _) as [y|]; [|intro H; discriminate H]. intro H. left. injection H as <-. reflexivity.
Qed.
Lemma pt_from_bytes_one (F S : Field) (cB c3B cGy : F) p v (OL : OpsLaws F p v) bs (Q : curve_of F S cB c3B cGy) : c_from_bytes bs = Some Q ->
  let '(_, _, z) := c_get_xyz Q in z = fone \/ c_to_bytes Q = repeat 0%Z 32.
Proof.
  intro H. destruct (c_get_xyz Q) as [[x y] z] eqn:E. change (pt_from_bytes F cB bs = Some Q) in H.
  destruct (pt_from_bytes_z F cB bs Q H) as [HZ|HZ].
  - left. destruct Q as [x' y' z']. cbv in E. injection E as _ _ <-. exact HZ.
  - right. subst Q. change (pt_to_bytes F (pt_zero F) = repeat 0%Z 32). unfold pt_to_bytes, pt_is_zero. cbn [pz pt_zero].
    unfold is_zero. rewrite (feqb_refl OL). reflexivity.
Qed.
