(** In-circuit scalar multiplication: the honest prover's witness satisfies the
    circuits of ecc.rs and denotes the multiple. *)
From Coq Require Import String List Bool ZArith Lia Ring Field.
From Verif Require Import Lib.AbGroup Lib.Abel Model.FieldTrait Model.Circuits Model.Num Model.Boolean Model.Curve Model.Util Model.Ecc
  Spec.FieldLaws Spec.CircuitSpec Spec.NumSpec Spec.BoolSpec Spec.CurveSpec Spec.CurveLaws Spec.UtilSpec Spec.EccSpec
  Proofs.FieldGen Proofs.ZtoF Proofs.CircuitP Proofs.LcP Proofs.NumP Proofs.BoolP Proofs.CurveTop Proofs.UnpackP Proofs.ChallengeP Proofs.EccP Proofs.EccAddP.
Import ListNotations.
Open Scope nat_scope. Open Scope list_scope. Open Scope type_scope.

Lemma enorm_lower x ne : (9 <= enorm x -> 9 <= enorm (estep x ne))%Z.
Proof.
  destruct x as [a b], ne as [n e]. unfold enorm, estep. cbn [fst snd]. intro H.
  assert (H1 : ((2 * a - b) * (2 * a - b) <= 4 * (a * a - a * b + b * b))%Z) by nia.
  assert (H2 : (3 * Z.abs (2 * a - b) <= 2 * (a * a - a * b + b * b))%Z).
  { revert H1 H. generalize (2 * a - b)%Z (a * a - a * b + b * b)%Z. intros t N H1 H. apply Z.square_le_simpl_nonneg; [lia|].
    pose proof (Z.abs_square t). nia. }
  assert (H3 : (- (2 * (a * a - a * b + b * b)) <= 3 * (2 * a - b) <= 2 * (a * a - a * b + b * b))%Z) by lia. clear H1 H2.
  destruct n, e; cbn [fst snd]; nia.
Qed.

Section EccMulP.
  Context {C : Curve} {q vb r vs} (CL : CurveLaws C q vb r vs) (one : Var).
  Notation F := (Base C).
  Let FL : FieldLaws F q vb := cl_base _ _ _ _ _ CL.
  Let OL : OpsLaws F q vb := fl_ops _ _ _ FL.
  Let SL : FieldLaws (Scalar C) r vs := cl_scalar _ _ _ _ _ CL.
  Let SO : OpsLaws (Scalar C) r vs := fl_ops _ _ _ SL.
  Add Field Ff : (ffield OL).
  Add Field Fs : (ffield SO).
  Variable w : assignment F.
  Hypothesis w_one : w one = fone.
  Notation onc := (on_curve (c_b C)).
  Notation G := (cl_group _ _ _ _ _ CL).
  Notation pt := (cl_point _ _ _ _ _ CL).
  Implicit Types (g h : G) (s t u : Scalar C).

  (** ** Scalars acting on points *)
  Definition zs s g : G := zmul (vs s) g.
  Lemma zs_add s t g : zs (fadd s t) g = gp (zs s g) (zs t g).
  Proof. unfold zs. rewrite (ol_add _ _ _ SO), (CurveTop.zmul_vs_mod CL). apply zmul_add. Qed.
  Lemma zs_sub s t g : zs (fsub s t) g = gp (zs s g) (gn (zs t g)).
  Proof. unfold zs. rewrite (ol_sub _ _ _ SO), (CurveTop.zmul_vs_mod CL). apply zmul_sub. Qed.
  Lemma zs_mul s t g : zs (fmul s t) g = zs s (zs t g).
  Proof. unfold zs. rewrite (ol_mul _ _ _ SO), (CurveTop.zmul_vs_mod CL). apply zmul_mul. Qed.
  Lemma zs_one g : zs fone g = g. Proof. unfold zs. rewrite (ol_one _ _ _ SO). apply zmul_1. Qed.
  Lemma zs_zero g : zs fzero g = g0. Proof. unfold zs. rewrite (ol_zero _ _ _ SO). apply zmul_0. Qed.
  Lemma zs_g0 s : zs s (g0 : G) = g0. Proof. apply zmul_g0. Qed.
  Lemma zs_neg s g : zs (fneg s) g = gn (zs s g).
  Proof. replace (fneg s) with (fsub fzero s) by ring. rewrite zs_sub, zs_zero, gp_0_l. reflexivity. Qed.
  Lemma zs_zero_inv s g : zs s g = g0 -> s = fzero \/ g = g0.
  Proof.
    intro H. destruct (feq_dec SO s fzero) as [E|E]; [left; exact E|right].
    destruct (fl_invert _ _ _ SL s) as (i & _ & Hi); [intro E'; apply E; apply (v_eq_zero SO); exact E'|].
    assert (E1 : fmul i s = fone). { apply (ol_inj _ _ _ SO). rewrite (ol_mul _ _ _ SO), (ol_one _ _ _ SO), Z.mul_comm. exact Hi. }
    rewrite <- (zs_one g), <- E1, zs_mul, H. apply zs_g0.
  Qed.
  Lemma zs_inj s t g : g <> g0 -> zs s g = zs t g -> s = t.
  Proof.
    intros Hg H. destruct (zs_zero_inv (fsub s t) g) as [E|E]; [rewrite zs_sub, H; apply gp_n_r| |contradiction].
    apply (proj1 (fsub_zero SO _ _)). exact E.
  Qed.
  Lemma pt_eq g h : pt g = pt h <-> g = h. Proof. split; [apply (cl_inj _ _ _ _ _ CL)|congruence]. Qed.
  Lemma pt_inf g : pt g = infinity <-> g = g0. Proof. rewrite <- (cl_infinity _ _ _ _ _ CL). apply pt_eq. Qed.
  Lemma pt_sum g h : sum_of (pt g) (pt h) (pt (gp g h)). Proof. apply (cl_sum _ _ _ _ _ CL). reflexivity. Qed.
  Lemma g_dec g : {g = g0} + {g <> g0}.
  Proof.
    destruct (pt g) as [A|] eqn:E.
    - right. intro E'. apply pt_inf in E'. rewrite E' in E. discriminate E.
    - left. apply pt_inf. exact E.
  Qed.
  Lemma chordal_scalar s t g : g <> g0 -> s <> fzero -> t <> fzero -> s <> t -> s <> fneg t -> chordal (pt (zs s g)) (pt (zs t g)).
  Proof.
    intros Hg Hs Ht Hd Hn. split; [|split; [|split]].
    - intro E. apply pt_inf in E. destruct (zs_zero_inv _ _ E); contradiction.
    - intro E. apply pt_inf in E. destruct (zs_zero_inv _ _ E); contradiction.
    - intro E. apply pt_eq in E. apply Hd. exact (zs_inj _ _ _ Hg E).
    - rewrite <- (cl_opposite _ _ _ _ _ CL), pt_eq, <- zs_neg. intro E. apply Hn. exact (zs_inj _ _ _ Hg E).
  Qed.

  (** ** The gadgets on multiples of one point *)
  Notation hs P s g := (cp_has w P (pt (zs s g))).
  Lemma double_scalar P s g : hs P s g -> complete w (cp_double one P) (fun R => hs R (fadd s s) g).
  Proof. intro H. rewrite zs_add. apply (double_complete CL one w w_one P _ _ H). apply pt_sum. Qed.
  Lemma add_inc_scalar P Q s t g : hs P s g -> hs Q t g -> g = g0 \/ (s <> fzero /\ t <> fzero /\ s <> t /\ s <> fneg t) ->
    complete w (cp_add_incomplete one P Q) (fun R => hs R (fadd s t) g).
  Proof.
    intros HP HQ HC. rewrite zs_add. apply (add_incomplete_complete CL one w w_one P Q _ _ _ HP HQ); [apply pt_sum|].
    destruct HC as [->|(H1 & H2 & H3 & H4)]; [left; rewrite !zs_g0; split; apply pt_inf; reflexivity|].
    destruct (g_dec g) as [->|Hg]; [left; rewrite !zs_g0; split; apply pt_inf; reflexivity|].
    right. apply chordal_scalar; assumption.
  Qed.
  Lemma dbl_add_scalar P Q s t g : hs P s g -> hs Q t g ->
    g = g0 \/ (s <> fzero /\ t <> fzero /\ s <> t /\ s <> fneg t /\ fadd (fadd s s) t <> fzero) ->
    complete w (cp_double_and_add_incomplete one P Q) (fun R => hs R (fadd (fadd s s) t) g).
  Proof.
    intros HP HQ HC.
    assert (E : zs (fadd (fadd s s) t) g = gp (zs s g) (gp (zs s g) (zs t g))) by (rewrite !zs_add; abel). rewrite E.
    apply (dbl_add_complete CL one w w_one P Q _ _ (pt (gp (zs s g) (zs t g))) _ HP HQ); [apply pt_sum|apply pt_sum|].
    destruct HC as [->|(H1 & H2 & H3 & H4 & H5)]; [left; rewrite !zs_g0; split; apply pt_inf; reflexivity|].
    destruct (g_dec g) as [->|Hg]; [left; rewrite !zs_g0; split; apply pt_inf; reflexivity|].
    right. split; [apply chordal_scalar; assumption|].
    rewrite <- (cl_opposite _ _ _ _ _ CL), pt_eq. intro E'. rewrite <- zs_add, <- zs_neg in E'. apply (zs_inj _ _ _ Hg) in E'.
    apply H5. transitivity (fadd s (fadd s t)); [ring|]. rewrite E'. ring.
  Qed.
  Lemma cond_neg_scalar P c b s g : hs P s g -> bool_has w c b ->
    complete w (cp_conditional_neg one P c) (fun R => hs R (if b then fneg s else s) g).
  Proof.
    intros HP HC. pose proof (conditional_neg_complete CL one w w_one P _ c b HP HC) as H.
    replace (cond_neg b (pt (zs s g))) with (pt (zs (if b then fneg s else s) g)) in H; [exact H|].
    destruct b; cbn [cond_neg]; [|reflexivity]. rewrite zs_neg. apply (cl_opposite _ _ _ _ _ CL).
  Qed.
  Lemma cond_endo_scalar P c b s g : f_BETA = BETA_BASE C -> f_BETA = BETA_SCALAR C -> hs P s g -> bool_has w c b ->
    complete w (cp_conditional_endo one P c) (fun R => hs R (if b then fmul s f_BETA else s) g).
  Proof.
    intros HB1 HB2 HP HC. pose proof (conditional_endo_complete CL one w w_one P _ c b HB1 HP HC) as H.
    replace (cond_endo b (pt (zs s g))) with (pt (zs (if b then fmul s f_BETA else s) g)) in H; [exact H|].
    destruct b; cbn [cond_endo]; [|reflexivity]. rewrite (endo_pt CL). f_equal. fold (zs (BETA_SCALAR C) (zs s g)).
    rewrite <- zs_mul, HB2. f_equal. ring.
  Qed.

  (** ** multiply *)
  Lemma identity_has : cp_has w (cp_identity (C := C)) infinity.
  Proof. split; [split; [exact I|repeat split]|repeat split]. Qed.
  Lemma multiply_scalar P g bits bs : cp_has w P (pt g) -> Forall2 (bit_has w) bits bs ->
    complete w (cp_multiply one P bits) (fun R => cp_has w R (pt (zmul (bits_val bs) g))).
  Proof.
    intros HP HB. unfold cp_multiply.
    assert (H : forall bits bs Q k, Forall2 (bit_has w) bits bs -> cp_has w Q (pt (zmul k g)) ->
      complete w (foldM (fun acc bit => namespace "bit" (cp_multiply_step one P acc bit)) (rev bits) Q)
        (fun R => cp_has w R (pt (zmul (bits_val bs + 2 ^ Z.of_nat (length bs) * k) g)))).
    { clear bits bs HB. intros bits bs. revert bits. induction bs as [|b bs IH] using rev_ind; intros bits Q k HB HQ.
      - inversion HB; subst. cbn [rev foldM length bits_val]. change (2 ^ Z.of_nat 0)%Z with 1%Z.
        replace (0 + 1 * k)%Z with k by ring. apply complete_ret. exact HQ.
      - apply Forall2_app_inv_r in HB. destruct HB as (bits' & l2 & HB & HB2 & ->). inversion HB2 as [|bit b' l3 l4 Hb Hn]; subst. inversion Hn; subst.
        rewrite rev_app_distr. cbn [rev app foldM].
        eapply complete_bind. { apply complete_namespace. apply (multiply_step_complete CL one w w_one P Q _ _ (pt (gp (zmul k g) (zmul k g))) (pt (gp (gp (zmul k g) (zmul k g)) g)) bit b HP HQ Hb); apply pt_sum. }
        intros Q' HQ'.
        assert (EQ : pick_point b (pt (gp (gp (zmul k g) (zmul k g)) g)) (pt (gp (zmul k g) (zmul k g))) = pt (zmul (Z.b2z b + 2 * k) g)).
        { destruct b; cbn [pick_point Z.b2z]; f_equal; rewrite zmul_add, zmul_double; [rewrite zmul_1|rewrite zmul_0]; abel. }
        rewrite EQ in HQ'. specialize (IH bits' Q' _ HB HQ').
        replace (bits_val (bs ++ [b]) + 2 ^ Z.of_nat (length (bs ++ [b])) * k)%Z with (bits_val bs + 2 ^ Z.of_nat (length bs) * (Z.b2z b + 2 * k))%Z; [exact IH|].
        rewrite UnpackP.bits_val_app, app_length, Nat2Z.inj_add, Z.pow_add_r by lia. cbn [bits_val length]. change (2 ^ Z.of_nat 1)%Z with 2%Z. ring. }
    specialize (H bits bs (cp_identity (C := C)) 0%Z HB). rewrite Z.mul_0_r, Z.add_0_r in H. apply H.
    rewrite zmul_0, (cl_infinity _ _ _ _ _ CL). exact identity_has.
  Qed.

  (** ** multiply_endo *)
  Definition bit_pairs (bs : list bool) (l : list nat) : list (bool * bool) :=
    map (fun i => (nth (i * 2) bs false, nth (i * 2 + 1) bs false)) l.
  Lemma nth_has bits bs i : Forall2 (bit_has w) bits bs -> i < length bits -> bit_has w (nth i bits (no_bit one)) (nth i bs false).
  Proof.
    intro H. revert i. induction H as [|x y l l' Hxy H IH]; intros i Hi; [inversion Hi|].
    destruct i as [|i]; [exact Hxy|]. cbn [nth]. apply IH. cbn in Hi. lia.
  Qed.
  Lemma emb_far x : (9 <= enorm x)%Z -> (enorm x < 2 ^ 140)%Z -> let s := @emb (Scalar C) x in
    s <> fzero /\ s <> fone /\ s <> fneg fone /\ fadd (fadd s s) fone <> fzero /\ fadd (fadd s s) (fneg fone) <> fzero.
  Proof.
    intros H9 HU. pose proof (fl_size _ _ _ SL) as [Hs _]. assert (HK : (8 * 2 ^ 140 + 8 < 2 ^ 254)%Z) by reflexivity.
    cbv zeta. destruct x as [a b].
    assert (K : forall m c d : Z, (m = 1 \/ m = 2)%Z -> (c = 0 \/ c = 1 \/ c = -1)%Z -> (m = 2 -> c <> 0)%Z ->
      fadd (if (m =? 1)%Z then emb (a, b) else fadd (emb (a, b)) (emb (a, b))) (@fz (Scalar C) c) <> fzero).
    { intros m c _ Hm Hc Hmc E.
      assert (E1 : @emb (Scalar C) (m * a + c, m * b)%Z = fzero).
      { rewrite <- E. unfold emb. cbn [fst snd]. rewrite (fz_add SO), !(fz_mul SO). destruct Hm as [-> | ->]; cbn [Z.eqb Pos.eqb];
          [change (@fz (Scalar C) 1) with (@fone (Scalar C))|change (@fz (Scalar C) 2) with (fadd (@fone (Scalar C)) fone)]; ring. }
      apply (emb_zero SL) in E1.
      - injection E1 as E1 E2. unfold enorm in H9. cbn [fst snd] in H9. assert (b = 0)%Z by lia. subst b. destruct Hm as [-> | ->]; [|lia]. nia.
      - clear E E1. unfold enorm in *. cbn [fst snd] in *.
        assert (HT : ((m * a + c) * (m * a + c) - (m * a + c) * (m * b) + m * b * (m * b) = m * m * (a * a - a * b + b * b) + c * m * (2 * a - b) + c * c)%Z) by ring.
        rewrite HT. clear HT. assert (H1 : ((2 * a - b) * (2 * a - b) <= 4 * (a * a - a * b + b * b))%Z) by nia.
        revert H9 HU H1. generalize (2 * a - b)%Z (a * a - a * b + b * b)%Z. intros t N H9 HU H1.
        assert (Ht : (- N <= t <= N)%Z) by nia.
        clear H1. assert (4 * N + 2 * N + 1 < r)%Z by lia. clear HK Hs HU.
        destruct Hm as [-> | ->], Hc as [-> |[-> | ->]]; lia. }
    repeat split.
    - intro E. apply (K 1 0 0)%Z; try lia. cbn [Z.eqb Pos.eqb]. rewrite E. change (@fz (Scalar C) 0) with (@fzero (Scalar C)). ring.
    - intro E. apply (K 1 (-1) 0)%Z; try lia. cbn [Z.eqb Pos.eqb]. rewrite E. change (@fz (Scalar C) (-1)) with (fneg (@fone (Scalar C))). ring.
    - intro E. apply (K 1 1 0)%Z; try lia. cbn [Z.eqb Pos.eqb]. rewrite E. change (@fz (Scalar C) 1) with (@fone (Scalar C)). ring.
    - intro E. apply (K 2 1 0)%Z; try lia. exact E.
    - intro E. apply (K 2 (-1) 0)%Z; try lia. exact E.
  Qed.
  Lemma fone_nz : (fone : Scalar C) <> fzero. Proof. apply (fone_neq_zero SO). Qed.
  Lemma fnone_nz : fneg (fone : Scalar C) <> fzero. Proof. intro E. apply fone_nz. transitivity (fneg (fneg (fone : Scalar C))); [ring|]. rewrite E. ring. Qed.
  Lemma sstep_unfold (s : Scalar C) n e : sstep s (n, e) =
    let t := fadd (fadd s s) (if n then fneg fone else fone) in if e then fmul t f_BETA else t.
  Proof. unfold sstep. cbn [fst snd]. destruct n, e; cbv zeta; [f_equal| |reflexivity|reflexivity]; ring. Qed.

  Ltac enf := eapply complete_enforce_k; [first [ecc_lcg OL w; ring|idtac]|]; cbv beta iota zeta.
  Lemma inf_zs s g : s <> fzero -> at_infinity (pt (zs s g)) = at_infinity (pt g).
  Proof.
    intro Hs. destruct (pt g) as [A|] eqn:E.
    - destruct (pt (zs s g)) as [B|] eqn:E'; [reflexivity|]. exfalso. apply pt_inf in E'. destruct (zs_zero_inv _ _ E') as [E1|E1]; [contradiction|].
      apply pt_inf in E1. rewrite E1 in E. discriminate E.
    - apply pt_inf in E. subst g. rewrite zs_g0. rewrite (proj2 (pt_inf g0) eq_refl). reflexivity.
  Qed.

  Lemma three_far : let s := fadd (fone : Scalar C) fone in s <> fzero /\ fone <> (fzero : Scalar C) /\ s <> fone /\ s <> fneg fone.
  Proof.
    cbv zeta. pose proof (fl_size _ _ _ SL) as Hs. assert (Hr : (3 < r)%Z) by (apply Z.lt_trans with (2 ^ 254)%Z; [reflexivity|apply Hs]). clear Hs.
    assert (V2 : vs (fadd fone fone) = 2%Z) by (rewrite (ol_add _ _ _ SO), !(ol_one _ _ _ SO); apply Z.mod_small; lia).
    split; [intro E; apply (f_equal vs) in E; rewrite V2, (ol_zero _ _ _ SO) in E; lia|]. split; [exact fone_nz|].
    split; intro E; apply (f_equal vs) in E; rewrite V2 in E; [rewrite (ol_one _ _ _ SO) in E; lia|].
    assert (VN : vs (fneg fone) = (r - 1)%Z) by (rewrite (ol_neg _ _ _ SO), (ol_one _ _ _ SO); symmetry; apply (Z.mod_unique _ _ (-1)); lia).
    lia.
  Qed.
  Lemma three_complete {X} P g (k : CurvePoint C -> CS F X) Q : cp_has w P (pt g) ->
    (forall R, hs R (fadd (fadd fone fone) fone) g -> complete w (k R) Q) ->
    complete w (acc <- namespace "[2] Acc" (cp_double one P) ;; acc <- namespace "[3] Acc" (cp_add_incomplete one acc P) ;; k acc) Q.
  Proof.
    intros HP HK. assert (HP' : hs P fone g) by (rewrite zs_one; exact HP).
    ccall (double_scalar P fone g HP'). intros R2 HR2.
    ccall (add_inc_scalar R2 P _ _ g HR2 HP'). { right. exact three_far. } intros R3 HR3. apply HK. exact HR3.
  Qed.

  Lemma bits_scalar_val bits bs : Forall2 (bit_has w) bits bs -> bits_scalar (C := C) bits = fz (bits_val bs).
    Proof.
      intro HB. unfold bits_scalar. rewrite <- fold_left_rev_right, rev_involutive.
      induction HB as [|x y l l' [_ Hxy] HB IH]; [reflexivity|]. cbn [fold_right]. rewrite IH, Hxy. cbn [bits_val].
      rewrite (fz_add SO), (fz_mul SO). change (@fz (Scalar C) 2) with (fadd (@fone (Scalar C)) fone).
      destruct y; cbn [Z.b2z]; [change (@fz (Scalar C) 1) with (@fone (Scalar C))|change (@fz (Scalar C) 0) with (@fzero (Scalar C))]; ring.
    Qed.

  Section Endo.
    Hypothesis HB1 : f_BETA = BETA_BASE C.
    Hypothesis HB2 : f_BETA = BETA_SCALAR C.
    Lemma endo_step_scalar P bits bs g i Q s : cp_has w P (pt g) -> Forall2 (bit_has w) bits bs -> i * 2 + 1 < length bits -> hs Q s g ->
      g = g0 \/ (s <> fzero /\ s <> fone /\ s <> fneg fone /\ fadd (fadd s s) fone <> fzero /\ fadd (fadd s s) (fneg fone) <> fzero) ->
      complete w (cp_endo_step one P bits Q i) (fun R => hs R (sstep s (nth (i * 2) bs false, nth (i * 2 + 1) bs false)) g).
    Proof.
      intros HP HB Hi HQ HC. rewrite sstep_unfold. unfold cp_endo_step.
      assert (Hn := nth_has bits bs (i * 2) HB ltac:(lia)). assert (He := nth_has bits bs (i * 2 + 1) HB Hi).
      set (n := nth (i * 2) bs false) in *. set (e := nth (i * 2 + 1) bs false) in *.
      assert (HP' : hs P fone g) by (rewrite zs_one; exact HP).
      ccall (cond_neg_scalar P (Is (nth (i * 2) bits (no_bit one))) n fone g HP' Hn). intros B HBn.
      ccall (dbl_add_scalar Q B s (if n then fneg fone else fone) g HQ HBn).
      { destruct HC as [->|(H1 & H2 & H3 & H4 & H5)]; [left; reflexivity|right]. destruct n.
        - split; [exact H1|]. split; [exact fnone_nz|]. split; [exact H3|]. split; [|exact H5]. intro E. apply H2. rewrite E. ring.
        - split; [exact H1|]. split; [exact fone_nz|]. split; [exact H2|]. split; [exact H3|exact H4]. }
      intros R HR. apply complete_namespace. cbv zeta.
      exact (cond_endo_scalar R (Is (nth (i * 2 + 1) bits (no_bit one))) e _ g HB1 HB2 HR He).
    Qed.
    Lemma endo_fold P bits bs g : cp_has w P (pt g) -> Forall2 (bit_has w) bits bs -> forall l x m Q,
      (forall i, In i l -> i * 2 + 1 < length bits) -> (0 <= m)%Z -> (enorm x <= m * m)%Z -> (2 ^ Z.of_nat (length l) * (m + 1) <= 2 ^ 66)%Z -> (9 <= enorm x)%Z ->
      hs Q (emb x) g -> complete w (foldM (cp_endo_step one P bits) l Q) (fun R => hs R (emb (fold_left estep (bit_pairs bs l) x)) g).
    Proof.
      intros HP HB. induction l as [|i l IH]; intros x m Q Hl Hm Hx Hu Hx9 HQ; [apply complete_ret; exact HQ|].
      cbn [foldM bit_pairs map fold_left].
      assert (Hm66 : (m + 1 <= 2 ^ 66)%Z).
      { pose proof (Z.pow_pos_nonneg 2 (Z.of_nat (length (i :: l))) ltac:(lia) ltac:(lia)) as HP1. revert Hu HP1. generalize (2 ^ Z.of_nat (length (i :: l)))%Z. intros z Hu HP1. nia. }
      eapply complete_bind.
      { apply (endo_step_scalar P bits bs g i Q (emb x) HP HB (Hl i (or_introl eq_refl)) HQ). right. apply emb_far; [exact Hx9|].
        apply Z.le_lt_trans with (2 ^ 66 * 2 ^ 66)%Z; [|reflexivity]. apply Z.le_trans with (m * m)%Z; [exact Hx|]. apply Z.mul_le_mono_nonneg; lia. }
      intros R HR. cbv beta in HR. rewrite (surjective_pairing (nth (i * 2) bs false, nth (i * 2 + 1) bs false)) in HR. cbn [fst snd] in HR.
      replace (sstep (emb x) (nth (i * 2) bs false, nth (i * 2 + 1) bs false)) with (@emb (Scalar C) (estep x (nth (i * 2) bs false, nth (i * 2 + 1) bs false))) in HR
        by (rewrite (emb_step SL); reflexivity).
      apply (IH (estep x (nth (i * 2) bs false, nth (i * 2 + 1) bs false)) (2 * m + 1)%Z R).
      - intros j Hj. apply Hl. right. exact Hj.
      - lia.
      - apply enorm_step; [exact Hm|exact Hx].
      - cbn [length] in Hu. rewrite Nat2Z.inj_succ, Z.pow_succ_r in Hu by lia. replace (2 * m + 1 + 1)%Z with (2 * (m + 1))%Z by ring. lia.
      - apply enorm_lower. exact Hx9.
      - exact HR.
    Qed.
    Lemma mask_complete nm (n : Num F) (v : F) b bv : n_ok w n -> n_val w n = v -> bool_has w b bv ->
      complete w (mask one nm n b) (fun a => num_ok w a /\ num_val w a = fmul v (of_bit (negb bv))).
    Proof.
      intros HN HV [HB HBv]. unfold n_ok in HN. unfold mask. rewrite HN, HBv, HV. cbn [rbind ok_or_missing].
      mul ltac:(reflexivity). eapply complete_enforce_k. { ecc_lcg OL w. rewrite (n_lc_val FL one w w_one), HV. ring. }
      eapply complete_enforce_k. { ecc_lcg OL w. rewrite (bool_lc1_val FL one w w_one _ _ (bool_not_is w b bv HB)). destruct bv; cbn [negb of_bit]; ring. }
      apply complete_ret. unfold num_ok, num_val. cbn [num_value num_var option_map]. split; [congruence|]. rewrite H1. destruct bv; reflexivity.
    Qed.
    Definition endo_scalar (bs : list bool) : Scalar C := fold_left (@sstep (Scalar C)) (bit_pairs bs (seq 1 63)) (fadd (fadd fone fone) fone).
    Lemma emb_30 : @emb (Scalar C) (3, 0)%Z = fadd (fadd fone fone) fone.
    Proof. unfold emb. cbn [fst snd fz fposz]. ring. Qed.
    Lemma endo_scalar_emb bs : endo_scalar bs = emb (fold_left estep (bit_pairs bs (seq 1 63)) (3, 0)%Z).
    Proof. unfold endo_scalar. rewrite <- emb_30. apply (run_emb SL). Qed.
    Lemma endo_scalar_nz bs : endo_scalar bs <> fzero.
    Proof.
      rewrite endo_scalar_emb. intro E. set (l := bit_pairs bs (seq 1 63)) in *.
      assert (HN : length l = 63) by (unfold l, bit_pairs; rewrite map_length, seq_length; reflexivity).
      pose proof (erun_unit l (3, 0)%Z start_unit) as U.
      assert (E' : fold_left estep l (3, 0)%Z = (0, 0)%Z).
      { apply (emb_zero SL); [exact E|]. pose proof (enorm_run l (3, 0)%Z 3 ltac:(lia) ltac:(cbv; congruence)) as H. rewrite HN in H.
        destruct (fl_size _ _ _ SL) as [Hs _]. apply Z.le_lt_trans with (1 := H). apply Z.lt_trans with (2 ^ 254)%Z; [reflexivity|exact Hs]. }
      rewrite E' in U. discriminate U.
    Qed.
    Lemma bit_bool_has P A : cp_has w P A -> bool_has w (cp_id P) (at_infinity A).
    Proof. intros ((_ & _ & _ & H1) & _ & _ & H2). split; assumption. Qed.
    Lemma multiply_endo_scalar P g bits bs : cp_has w P (pt g) -> Forall2 (bit_has w) bits bs -> length bits = 128 ->
      complete w (cp_multiply_endo one P bits) (fun R => hs R (endo_scalar bs) g).
    Proof.
      intros HP HB HL. unfold cp_multiply_endo. apply complete_assert_k; [rewrite HL; reflexivity|].
      apply (three_complete P g _ _ HP). intros R3 HR3. rewrite <- emb_30 in HR3.
      eapply complete_bind.
      { match goal with |- complete _ (foldM _ ?l _) _ => constr_eq l (seq 1 63) end.
        apply (endo_fold P bits bs g HP HB (seq 1 63) (3, 0)%Z 3 R3); [|lia|cbv; congruence|cbv; congruence|cbv; congruence|exact HR3].
        intros i Hi. apply in_seq in Hi. lia. }
      cbv beta. intros R HR. rewrite <- endo_scalar_emb in HR.
      pose proof (endo_scalar_nz bs) as Hnz. pose proof (inf_zs _ g Hnz) as HI.
      destruct HR as ((HO & X & Y & I1) & OX & OY & OI). pose proof (bit_bool_has P _ HP) as HPb.
      ccall (mask_complete "final x coordinate" (cp_x R) _ (cp_id P) _ OX X HPb). intros xf [OXf Xf].
      ccall (mask_complete "final y coordinate" (cp_y R) _ (cp_id P) _ OY Y HPb). intros yf [OYf Yf].
      apply complete_ret. rewrite <- HI in *. split; [split; [exact HO|]|].
      - cbn [cp_x cp_y cp_id]. rewrite !(n_from_val FL), Xf, Yf. split; [|split; [|apply HPb]];
          destruct (pt (zs (endo_scalar bs) g)) as [[x y]|]; cbn [abscissa ordinate at_infinity negb of_bit]; ring.
      - cbn [cp_x cp_y cp_id]. split; [apply (n_from_ok FL), OXf|]. split; [apply (n_from_ok FL), OYf|apply HPb].
    Qed.

    (** ** multiply_inv_endo *)
    Lemma testbit_nth bs i : Z.testbit (bits_val bs) (Z.of_nat i) = nth i bs false.
    Proof.
      revert i. induction bs as [|b bs IH]; intro i; cbn [bits_val]; [rewrite Z.bits_0; destruct i; reflexivity|].
      destruct i as [|i].
      - change (Z.of_nat 0) with 0%Z. rewrite Z.bit0_odd, Z.odd_add, Z.odd_mul. cbn [nth]. destruct b; reflexivity.
      - rewrite Nat2Z.inj_succ. cbn [nth]. rewrite <- IH. rewrite Z.add_comm. destruct b; cbn [Z.b2z].
        + rewrite Z.testbit_odd_succ by lia. reflexivity.
        + rewrite Z.add_0_r, Z.testbit_even_succ by lia. reflexivity.
    Qed.
    Lemma challenge_bits {F1 : Field} {p1 v1} (L1 : FieldLaws F1 p1 v1) (ch : F1) bs : length bs = 128 ->
      (forall i, i < 128 -> nth i bs false = Z.testbit (v1 ch) (Z.of_nat i)) -> @get_challenge_scalar F1 (Scalar C) ch = endo_scalar bs.
    Proof.
      intros HL H. rewrite (challenge_run L1). unfold endo_scalar. f_equal. unfold challenge_pairs, bit_pairs. apply map_ext_in.
      intros i Hi. apply in_seq in Hi. rewrite !H by lia. do 2 f_equal; lia.
    Qed.
    Lemma scalar_challenge bits bs : Forall2 (bit_has w) bits bs -> length bits = 128 ->
      @get_challenge_scalar (Scalar C) (Scalar C) (bits_scalar (C := C) bits) = endo_scalar bs.
    Proof.
      intros HB HL. assert (HL' : length bs = 128) by (rewrite <- (Forall2_length _ _ _ HB); exact HL). apply (challenge_bits SL); [exact HL'|].
      intros i Hi. rewrite (bits_scalar_val bits bs HB), (v_fz SO), <- (testbit_nth bs i). pose proof (bits_val_range bs) as HR. rewrite HL' in HR.
      destruct (fl_size _ _ _ SL) as [Hs _]. rewrite Z.mod_small; [reflexivity|]. split; [apply HR|]. apply Z.lt_trans with (2 ^ Z.of_nat 128)%Z; [apply HR|].
      apply Z.lt_trans with (2 ^ 254)%Z; [reflexivity|exact Hs].
    Qed.
    Lemma get_point_has P A : cp_has w P A -> exists p : C, match cp_get_point P with Some (Some p) => Some p | Some None => Some c_zero | None => None end = Some p /\ represents p A.
    Proof.
      intro HP. destruct (cp_parts CL one w w_one P A HP) as (HA & VX & VY & VI & _). unfold cp_get_point. rewrite VX, VY, VI.
      destruct A as [[x y]|]; cbn [at_infinity].
      - destruct (from_xy_parts CL _ HA) as (p & E & Hp). exists p. rewrite E. split; [reflexivity|exact Hp].
      - exists c_zero. split; [reflexivity|]. apply (cl_rep_zero _ _ _ _ _ CL).
    Qed.
    Lemma multiply_inv_endo_scalar P g bits bs : cp_has w P (pt g) -> Forall2 (bit_has w) bits bs -> length bits = 128 ->
      complete w (cp_multiply_inv_endo one P bits) (fun R => exists h, cp_has w R (pt h) /\ zs (endo_scalar bs) h = g).
    Proof.
      intros HP HB HL. unfold cp_multiply_inv_endo. destruct (get_point_has P _ HP) as (p & Ep & Hp).
      destruct (fl_invert _ _ _ SL (endo_scalar bs)) as (i & Ei & Hi).
      { intro E. apply (endo_scalar_nz bs). apply (v_eq_zero SO). exact E. }
      match goal with |- complete _ (bind (cp_witness _ ?pt0) _) _ => assert (EW : pt0 = Ok (c_mul p i)) end.
      { destruct (cp_get_point P) as [[p'|]|]; cbn [rbind ok_or_missing]; [| |discriminate Ep]; injection Ep as <-;
          rewrite (scalar_challenge bits bs HB HL), Ei; reflexivity. }
      rewrite EW. pose proof (rep_mul CL p i g Hp) as HR. fold (zs i g) in HR.
      ccall (witness_complete CL one w w_one _ _ HR). intros R1 HR1.
      ccall (multiply_endo_scalar R1 _ bits bs HR1 HB HL). intros R2 HR2.
      assert (E : zs (endo_scalar bs) (zs i g) = g).
      { rewrite <- zs_mul. replace (fmul (endo_scalar bs) i) with (@fone (Scalar C)); [apply zs_one|].
        apply (ol_inj _ _ _ SO). rewrite (ol_mul _ _ _ SO), (ol_one _ _ _ SO). symmetry. exact Hi. }
      rewrite E in HR2. destruct (cp_parts CL one w w_one P _ HP) as (_ & _ & _ & _ & LX & LY & _).
      destruct (cp_parts CL one w w_one R2 _ HR2) as (_ & _ & _ & _ & LX2 & LY2 & _).
      eapply complete_enforce_k. { ecc_lcg OL w. ring. } eapply complete_enforce_k. { ecc_lcg OL w. ring. }
      apply complete_ret. exists (zs i g). split; assumption.
    Qed.
  End Endo.

  (** ** multiply_fast *)
  Definition fast_fold (P : CurvePoint C) (bits : list AllocatedBit) := foldM (fun acc bit => namespace "bit" (
      t <- namespace "conditional negation" (cp_conditional_neg one P (bool_not (Is bit))) ;;
      namespace "double and add" (cp_double_and_add_incomplete one acc t))) bits.
  Lemma fz_nz z : (0 < z < r)%Z -> @fz (Scalar C) z <> fzero.
  Proof. intros Hz E. apply (f_equal vs) in E. rewrite (v_fz SO), (ol_zero _ _ _ SO), Z.mod_small in E by lia. lia. Qed.
  Lemma fz_far m : (3 <= m)%Z -> (m + 1 < r)%Z -> let s := @fz (Scalar C) m in s <> fzero /\ s <> fone /\ s <> fneg fone.
  Proof.
    intros Hm HU. cbv zeta. change (@fone (Scalar C)) with (@fz (Scalar C) 1).
    split; [apply fz_nz; lia|]. split.
    - intro E. apply (fz_nz (m - 1)%Z); [lia|]. rewrite (fz_sub SO), E. ring.
    - intro E. apply (fz_nz (m + 1)%Z); [lia|]. rewrite (fz_add SO), E. ring.
  Qed.
  Lemma fast_fold_scalar P g : cp_has w P (pt g) -> forall bits bs m Q, Forall2 (bit_has w) bits bs -> (1 <= m)%Z ->
    (2 * (bits_val (rev bs) + 2 ^ Z.of_nat (length bs) * m) + 1 < r)%Z -> hs Q (fz (2 * m + 1)) g ->
    complete w (fast_fold P bits Q) (fun R => hs R (fz (2 * (bits_val (rev bs) + 2 ^ Z.of_nat (length bs) * m) + 1)) g).
  Proof.
    intros HP bits bs m Q HB. revert m Q. unfold fast_fold. induction HB as [|bit b bits bs Hb HB IH]; intros m Q Hm HU HQ.
    - apply complete_ret. cbn [rev bits_val length]. change (2 ^ Z.of_nat 0)%Z with 1%Z.
      replace (2 * (0 + 1 * m) + 1)%Z with (2 * m + 1)%Z by ring. exact HQ.
    - cbn [foldM length rev] in *. rewrite UnpackP.bits_val_app, rev_length in *. cbn [bits_val] in *. rewrite Nat2Z.inj_succ, Z.pow_succ_r in * by lia.
      pose proof (Z.pow_pos_nonneg 2 (Z.of_nat (length bs)) ltac:(lia) ltac:(lia)) as Hp. set (z := (2 ^ Z.of_nat (length bs))%Z) in *.
      pose proof (proj1 (bits_val_range (rev bs))) as Hv.
      assert (HE : (bits_val (rev bs) + z * (Z.b2z b + 2 * 0) + 2 * z * m = bits_val (rev bs) + z * (Z.b2z b + 2 * m))%Z) by ring. rewrite HE in *. clear HE.
      assert (HN : (2 * (Z.b2z b + 2 * m) + 1 < r)%Z) by (destruct b; cbn [Z.b2z] in *; nia).
      eapply complete_bind.
      { apply complete_namespace. assert (HP' : hs P fone g) by (rewrite zs_one; exact HP).
        ccall (cond_neg_scalar P (bool_not (Is bit)) (negb b) fone g HP' (bool_not_has w (Is bit) b Hb)). intros B HBn.
        apply complete_namespace. apply (dbl_add_scalar Q B _ _ g HQ HBn). right.
        destruct (fz_far (2 * m + 1)) as (H1 & H2 & H3); [lia|destruct b; cbn [Z.b2z] in *; lia|].
        split; [exact H1|]. split; [destruct b; cbn [negb]; [exact fone_nz|exact fnone_nz]|].
        split; [destruct b; cbn [negb]; assumption|]. split; [destruct b; cbn [negb]; [assumption|intro E; apply H2; rewrite E; ring]|].
        assert (K := fz_nz (2 * (Z.b2z b + 2 * m) + 1)). intro E. apply K; [destruct b; cbn [Z.b2z] in *; lia|]. rewrite <- E.
        change (@fone (Scalar C)) with (@fz (Scalar C) 1). destruct b; cbn [negb Z.b2z]; rewrite <- ?(fz_opp SO), <- !(fz_add SO); f_equal; ring. }
      cbv beta. intros R HR.
      assert (ES : fadd (fadd (@fz (Scalar C) (2 * m + 1)) (fz (2 * m + 1))) (if negb b then fneg fone else fone) = fz (2 * (Z.b2z b + 2 * m) + 1)).
      { change (@fone (Scalar C)) with (@fz (Scalar C) 1). destruct b; cbn [negb Z.b2z]; rewrite <- ?(fz_opp SO), <- !(fz_add SO); f_equal; ring. }
      rewrite ES in HR. exact (IH (Z.b2z b + 2 * m)%Z R ltac:(destruct b; cbn [Z.b2z]; lia) HU HR).
  Qed.
  Lemma neg_has P g : cp_has w P (pt g) -> hs (mkCP (cp_x P) (n_neg (cp_y P)) (cp_id P)) (fneg fone) g.
  Proof.
    intro HP. rewrite zs_neg, zs_one, (cl_opposite _ _ _ _ _ CL). destruct HP as ((HO & X & Y & I1) & OX & OY & OI).
    split; [split; [apply (opposite_on CL); exact HO|]|]; cbn [cp_x cp_y cp_id].
    - rewrite (n_neg_val FL), X, Y. clear - I1 OL. split; [|split]; revert I1; destruct (pt g) as [[x y]|]; intro I1; try reflexivity; try exact I1. cbn [ordinate opposite]. ring.
    - split; [exact OX|]. split; [apply (n_neg_ok FL), OY|]. rewrite OI. destruct (pt g) as [[x y]|]; reflexivity.
  Qed.
  Lemma Forall2_rev {X Y} (R : X -> Y -> Prop) l l' : Forall2 R l l' -> Forall2 R (rev l) (rev l').
  Proof. induction 1 as [|x y l l' H H' IH]; cbn [rev]; [constructor|]. apply Forall2_app; [exact IH|constructor; [exact H|constructor]]. Qed.
  Lemma multiply_fast_scalar P g bits bs : cp_has w P (pt g) -> Forall2 (bit_has w) bits bs -> 2 <= length bs -> last bs false = true ->
    (bits_val bs + 1 < r)%Z -> complete w (cp_multiply_fast one P bits) (fun R => hs R (fz (bits_val bs)) g).
  Proof.
    intros HP HB HL HT HR.
    assert (HP' : hs P fone g) by (rewrite zs_one; exact HP).
    destruct bs as [|b0 bs0]; [cbn in HL; lia|]. destruct (exists_last (l := bs0)) as (bs1 & bt & ->); [intro E; subst; cbn in HL; lia|].
    replace (last (b0 :: bs1 ++ [bt]) false) with bt in HT by (symmetry; apply (last_last (b0 :: bs1) bt false)). subst bt. clear HL.
    inversion HB as [|k0 b0' bits0 bs0' Hk HB0]; subst. apply Forall2_app_inv_r in HB0. destruct HB0 as (bits1 & l2 & HB1 & HB2 & ->).
    inversion HB2 as [|kt bt l3 l4 Hkt Hn]; subst. inversion Hn; subst. clear HB2 Hn HB.
    cbn [bits_val] in *. rewrite UnpackP.bits_val_app in *. cbn [bits_val Z.b2z] in *.
    set (m := (bits_val bs1 + 2 ^ Z.of_nat (length bs1) * 1)%Z) in *. replace (1 + 2 * 0)%Z with 1%Z in * by reflexivity. fold m in HR |- *.
    assert (Hm : (1 <= m)%Z) by (unfold m; pose proof (Z.pow_pos_nonneg 2 (Z.of_nat (length bs1)) ltac:(lia) ltac:(lia)); pose proof (bits_val_range bs1); lia).
    assert (Hodd : (2 * m + 1 < r)%Z) by (destruct b0; cbn [Z.b2z] in HR; lia).
    assert (Hodd2 : (2 * m + 1 + 1 < r)%Z).
    { pose proof (ol_prime _ _ _ SO) as HO. pose proof (ol_odd _ _ _ SO) as H2. assert (2 * m + 1 + 1 <> r)%Z; [|lia]. intros E.
      destruct (Znumtheory.prime_divisors r HO 2) as [K|[K|[K|K]]]; [exists (m + 1)%Z|..]; lia. }
    unfold cp_multiply_fast. cbn [hd_error]. apply complete_unwrap_k with (x := k0); [reflexivity|].
    apply complete_assert_k. { rewrite app_comm_cons, last_last. destruct Hkt as [_ ->]. reflexivity. }
    apply (three_complete P g _ _ HP). intros R3 HR3.
    cbn [skipn]. rewrite rev_app_distr. cbn [rev app skipn].
    eapply complete_bind.
    { apply (fast_fold_scalar P g HP (rev bits1) (rev bs1) 1 R3); [apply Forall2_rev, HB1|lia| |].
      - rewrite rev_involutive, rev_length. exact Hodd.
      - replace (@fz (Scalar C) (2 * 1 + 1)) with (fadd (fadd (@fone (Scalar C)) fone) fone) by (change (fadd (fadd (@fone (Scalar C)) fone) fone) with (fadd (fadd (@fz (Scalar C) 1) (fz 1)) (fz 1)); rewrite <- !(fz_add SO); reflexivity). exact HR3. }
    rewrite rev_involutive, rev_length. fold m. cbv beta. intros A HA.
    destruct (fz_far (2 * m + 1)) as (Z1 & Z2 & Z3); [lia|exact Hodd2|].
    ccall (add_inc_scalar A _ _ _ g HA (neg_has P g HP)).
    { right. split; [exact Z1|]. split; [exact fnone_nz|]. split; [exact Z3|]. intro E. apply Z2. rewrite E. ring. }
    intros B HBm. destruct (cp_parts CL one w w_one A _ HA) as (OA & VX & VY & VI & LX & LY & BI & LI).
    destruct (cp_parts CL one w w_one B _ HBm) as (OB & VX2 & VY2 & VI2 & LX2 & LY2 & BI2 & LI2).
    destruct (cp_parts CL one w w_one P _ HP) as (OP & VXp & VYp & VIp & LXp & LYp & BIp & LIp).
    destruct Hk as [Hk1 Hk2]. rewrite VX, VY, VX2, VY2, VIp, Hk2. cbn [omap2 rbind ok_or_missing].
    set (S := fz (2 * m + 1)) in *. set (T := fadd S (fneg fone)) in *.
    set (D := pt (zs (fz (Z.b2z b0 + 2 * m)) g)).
    assert (ED : D = pick_point b0 (pt (zs S g)) (pt (zs T g))).
    { unfold D, T, S, pick_point. destruct b0; cbn [Z.b2z]; do 2 f_equal.
      - f_equal. ring.
      - change (@fone (Scalar C)) with (@fz (Scalar C) 1). rewrite <- (fz_opp SO), <- (fz_add SO). f_equal. ring. }
    pose proof (inf_zs (fz (Z.b2z b0 + 2 * m)) g ltac:(apply fz_nz; destruct b0; cbn [Z.b2z] in *; lia)) as EI. fold D in EI.
    assert (EX : (if b0 then abscissa (pt (zs S g)) else abscissa (pt (zs T g))) = abscissa D) by (rewrite ED; destruct b0; reflexivity).
    assert (EY : (if b0 then ordinate (pt (zs S g)) else ordinate (pt (zs T g))) = ordinate D) by (rewrite ED; destruct b0; reflexivity).
    rewrite EX, EY.
    assert (EOX : (if at_infinity (pt g) then fzero else abscissa D) = abscissa D) by (rewrite <- EI; destruct D as [[x y]|]; reflexivity).
    assert (EOY : (if at_infinity (pt g) then fzero else ordinate D) = ordinate D) by (rewrite <- EI; destruct D as [[x y]|]; reflexivity).
    rewrite EOX, EOY. allocs. rewrite !(fb_of_bit FL).
    pose proof (bool_lc1_val FL one w w_one _ _ (bool_not_is w _ _ BIp)) as LN. pose proof Hk1 as Hk3. unfold bit_is in Hk3.
    mul ltac:(rewrite <- EX; destruct b0; cbn [of_bit]; ring). enf. enf.
    mul ltac:(rewrite <- EY; destruct b0; cbn [of_bit]; ring). enf. enf.
    mul ltac:(rewrite <- EI; destruct D as [[xd yd]|]; cbn [of_bit negb at_infinity abscissa]; ring). enf. enf. enf.
    mul ltac:(rewrite <- EI; destruct D as [[xd yd]|]; cbn [of_bit negb at_infinity ordinate]; ring). enf. enf. enf.
    apply complete_ret. fold D. rewrite <- EI in BIp, VIp. apply (cp_has_intro CL); try assumption; try reflexivity.
    apply (cl_on _ _ _ _ _ CL).
  Qed.

  (** ** multiply_inv and multiply_inv_fast *)
  Lemma inv_helper_scalar P g bits bs f : cp_has w P (pt g) -> Forall2 (bit_has w) bits bs -> (bits_val bs mod r <> 0)%Z ->
    (forall Q h, cp_has w Q (pt h) -> complete w (f Q) (fun R => hs R (fz (bits_val bs)) h)) ->
    complete w (cp_inv_helper one P bits f) (fun R => exists h, cp_has w R (pt h) /\ zs (fz (bits_val bs)) h = g).
  Proof.
    intros HP HB HN HF. destruct (cp_parts CL one w w_one P _ HP) as (OP & VX & VY & VI & LX & LY & BI & LI).
    unfold cp_inv_helper. rewrite VX, VY. apply (point_unwrap_k CL w (pt g)); [exact OP|]. intros p Hp.
    rewrite (bits_scalar_val bits bs HB). set (s := @fz (Scalar C) (bits_val bs)) in *.
    destruct (fl_invert _ _ _ SL s) as (i & Ei & Hi). { unfold s. rewrite (v_fz SO). exact HN. }
    rewrite Ei. cbn [rbind ok_or_missing].
    pose proof (rep_mul CL p i g Hp) as HR. fold (zs i g) in HR. rewrite (coords_rep CL _ _ HR). cbn [rbind ok_or_missing].
    assert (E : zs s (zs i g) = g).
    { rewrite <- zs_mul. replace (fmul s i) with (@fone (Scalar C)); [apply zs_one|].
      apply (ol_inj _ _ _ SO). rewrite (ol_mul _ _ _ SO), (ol_one _ _ _ SO). symmetry. exact Hi. }
    allocs. ccall (bit_alloc_complete FL one w (Ok (at_infinity (pt (zs i g)))) (at_infinity (pt (zs i g))) eq_refl). intros b [B1 B2].
    match goal with |- complete _ (bind (f ?P1) _) _ => assert (HQ : cp_has w P1 (pt (zs i g))) end.
    { apply (cp_has_intro CL); try assumption; try reflexivity. apply (cl_on _ _ _ _ _ CL). }
    ccall (HF _ _ HQ). rewrite E. intros R HR2.
    destruct (cp_parts CL one w w_one R _ HR2) as (OP2 & VX2 & VY2 & VI2 & LX2 & LY2 & BI2 & LI2).
    enf. enf. enf. apply complete_ret. exists (zs i g). split; [exact HQ|exact E].
  Qed.
  Lemma zs_fz k g : zs (fz k) g = zmul k g.
  Proof. unfold zs. rewrite (v_fz SO). apply (CurveTop.zmul_vs_mod CL). Qed.
  Lemma multiply_inv_scalar P g bits bs : cp_has w P (pt g) -> Forall2 (bit_has w) bits bs -> (bits_val bs mod r <> 0)%Z ->
    complete w (cp_multiply_inv one P bits) (fun R => exists h, cp_has w R (pt h) /\ zmul (bits_val bs) h = g).
  Proof.
    intros HP HB HN. eapply complete_weaken; [apply (inv_helper_scalar P g bits bs _ HP HB HN)|].
    - intros Q h HQ. rewrite zs_fz. apply (multiply_scalar Q h bits bs HQ HB).
    - intros R (h & H1 & H2). exists h. rewrite zs_fz in H2. split; assumption.
  Qed.
  Lemma top_bit_pos bs : last bs false = true -> (0 < bits_val bs)%Z.
  Proof.
    induction bs as [|b [|b' bs] IH]; intro H; [discriminate H|cbn in H; subst b; reflexivity|].
    specialize (IH H). change (0 < Z.b2z b + 2 * bits_val (b' :: bs))%Z. destruct b; cbn [Z.b2z]; lia.
  Qed.
  Lemma multiply_inv_fast_scalar P g bits bs : cp_has w P (pt g) -> Forall2 (bit_has w) bits bs ->
    2 <= length bs -> last bs false = true -> (bits_val bs + 1 < r)%Z ->
    complete w (cp_multiply_inv_fast one P bits) (fun R => exists h, cp_has w R (pt h) /\ zmul (bits_val bs) h = g).
  Proof.
    intros HP HB HL HT HR. eapply complete_weaken; [apply (inv_helper_scalar P g bits bs _ HP HB)|].
    - pose proof (top_bit_pos bs HT). rewrite Z.mod_small by lia. lia.
    - intros Q h HQ. apply (multiply_fast_scalar Q h bits bs HQ HB HL HT HR).
    - intros R (h & H1 & H2). exists h. rewrite zs_fz in H2. split; assumption.
  Qed.
End EccMulP.
