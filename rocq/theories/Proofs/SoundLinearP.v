(** Separating the polynomials that a random linear combination mixes: linear
    combinations of vectors, and Lagrange's formula. *)
From Coq Require Import ZArith List Bool Arith Lia Ring Field.
From Verif Require Import Lib.AbGroup Lib.Abel Model.FieldTrait Model.Circuits Model.Curve Model.Util Model.Params Model.Opening Model.Proofs
  Spec.FieldLaws Spec.CurveSpec Spec.CurveLaws Spec.UtilSpec Spec.SystemSpec Spec.ProofSpec Spec.VerifySpec Spec.ExtractSpec
  Proofs.FieldGen Proofs.SumP Proofs.ParamsP Proofs.CurveTop Proofs.MultiexpP Proofs.IdentityP Proofs.OpeningTop Proofs.ExtractP.
Import ListNotations.
Open Scope nat_scope.
Open Scope list_scope.

Section Linear.
  Context {C : Curve} {q vb r vs} (CL : CurveLaws C q vb r vs).
  Notation G := (cl_group _ _ _ _ _ CL).
  Notation F := (Scalar C).
  Let SL := cl_scalar _ _ _ _ _ CL.
  Let SO := fl_ops _ _ _ SL.
  Add Field Fs : (ffield SO).
  Infix "[+]" := fadd (at level 50, left associativity).
  Infix "[-]" := fsub (at level 50, left associativity).
  Infix "[*]" := fmul (at level 40, left associativity).
  Notation "a [/] b" := (fdiv (p := r) a b) (at level 40, left associativity).
  Notation msum := (msum CL).
  Notation smul := (smul CL).

  Lemma msum_zero n : forall gs, msum (repeat fzero n) gs = g0.
  Proof. induction n as [|n IH]; intros [|g gs]; try reflexivity. cbn [repeat]. rewrite (msum_cons CL), (smul_0 CL), IH. abel. Qed.
  Lemma dot_add v : forall w bs : list F, length v = length w -> dot (vadd v w) bs = dot v bs [+] dot w bs.
  Proof.
    intros w bs H. unfold dot. rewrite vadd_length by exact H. rewrite <- H. rewrite <- (fsum_add SO). apply fsum_ext. intros i _. rewrite (vadd_coeff CL) by exact H. ring.
  Qed.
  Lemma dot_scale s (v bs : list F) : dot (vscale s v) bs = s [*] dot v bs.
  Proof. unfold dot. rewrite vscale_length, <- (fsum_mul_l SO). apply fsum_ext. intros i _. rewrite (vscale_coeff CL). ring. Qed.
  Lemma dot_zero_l n (bs : list F) : dot (repeat fzero n) bs = fzero.
  Proof. unfold dot. apply (fsum_zero SO). intros i _. unfold coeff. rewrite nth_repeat. ring. Qed.

  Lemma eval_vadd v (w : list F) x : length v = length w -> eval_at (vadd v w) x = eval_at v x [+] eval_at w x.
  Proof.
    intro H. unfold eval_at. rewrite vadd_length by exact H. rewrite <- H. rewrite <- (fsum_add SO). apply fsum_ext. intros i _. rewrite (vadd_coeff CL) by exact H. ring.
  Qed.
  Lemma eval_vscale s (w : list F) x : eval_at (vscale s w) x = s [*] eval_at w x.
  Proof. unfold eval_at. rewrite vscale_length, <- (fsum_mul_l SO). apply fsum_ext. intros i _. rewrite (vscale_coeff CL). ring. Qed.

  Section Items.
    Context {I : Type}.
    Fixpoint lincomb (d : nat) (f : I -> F) (g : I -> list F) (l : list I) : list F :=
      match l with [] => repeat fzero d | i :: l => vadd (vscale (f i) (g i)) (lincomb d f g l) end.
    Fixpoint lsum (f : I -> F) (l : list I) : F := match l with [] => fzero | i :: l => f i [+] lsum f l end.
    Lemma lincomb_length d f g l : (forall i, In i l -> length (g i) = d) -> length (lincomb d f g l) = d.
    Proof.
      induction l as [|i l IH]; intro H; cbn [lincomb]; [apply repeat_length|]. rewrite vadd_length; rewrite vscale_length; [apply H; left; reflexivity|].
      rewrite IH by (intros j Hj; apply H; right; exact Hj). apply H. left. reflexivity.
    Qed.
    Lemma lincomb_coeff d f g l n : (forall i, In i l -> length (g i) = d) -> coeff (lincomb d f g l) n = lsum (fun i => f i [*] coeff (g i) n) l.
    Proof.
      induction l as [|i l IH]; intro H; cbn [lincomb lsum]; [unfold coeff; apply nth_repeat|].
      rewrite (vadd_coeff CL).
      - rewrite (vscale_coeff CL), IH by (intros j Hj; apply H; right; exact Hj). reflexivity.
      - rewrite vscale_length, lincomb_length by (intros j Hj; apply H; right; exact Hj). apply H. left. reflexivity.
    Qed.
    Lemma lincomb_eval d f g l x : (forall i, In i l -> length (g i) = d) -> eval_at (lincomb d f g l) x = lsum (fun i => f i [*] eval_at (g i) x) l.
    Proof.
      induction l as [|i l IH]; intro H; cbn [lincomb lsum]; [apply (eval_repeat SO)|].
      assert (H' : forall j, In j l -> length (g j) = d) by (intros j Hj; apply H; right; exact Hj).
      rewrite eval_vadd by (rewrite vscale_length, lincomb_length; [apply H; left; reflexivity|exact H']).
      rewrite eval_vscale, IH by exact H'. reflexivity.
    Qed.
    (** the same combination of two families of vectors *)
    Lemma lincomb_msum d d' f g h l gs cs : (forall i, In i l -> length (g i) = d /\ length (h i) = d' /\ msum (g i) gs = msum (h i) cs) ->
      msum (lincomb d f g l) gs = msum (lincomb d' f h l) cs.
    Proof.
      induction l as [|i l IH]; intro H; cbn [lincomb]; [rewrite !msum_zero; reflexivity|].
      destruct (H i (or_introl eq_refl)) as (H1 & H2 & H3).
      assert (H' : forall j, In j l -> length (g j) = d /\ length (h j) = d' /\ msum (g j) gs = msum (h j) cs) by (intros j Hj; apply H; right; exact Hj).
      rewrite !(msum_add CL) by (rewrite vscale_length, lincomb_length; [assumption|apply H']).
      rewrite !(msum_scale CL), H3, IH by exact H'. reflexivity.
    Qed.
    Lemma lincomb_dot d d' f g h l bs os : (forall i, In i l -> length (g i) = d /\ length (h i) = d' /\ dot (g i) bs = dot (h i) os) ->
      dot (lincomb d f g l) bs = dot (lincomb d' f h l) os.
    Proof.
      induction l as [|i l IH]; intro H; cbn [lincomb]; [rewrite !dot_zero_l; reflexivity|].
      destruct (H i (or_introl eq_refl)) as (H1 & H2 & H3).
      assert (H' : forall j, In j l -> length (g j) = d /\ length (h j) = d' /\ dot (g j) bs = dot (h j) os) by (intros j Hj; apply H; right; exact Hj).
      rewrite !dot_add by (rewrite vscale_length, lincomb_length; [assumption|apply H']).
      rewrite !dot_scale, H3, IH by exact H'. reflexivity.
    Qed.
  End Items.

  (** *** Lagrange *)
  Definition lin_mul (c : F) (l : list F) : list F := add_zip (fzero :: l) (map (fun t => t [*] fneg c) l).
  Lemma lin_mul_length c l : length (lin_mul c l) = S (length l).
  Proof. unfold lin_mul. rewrite add_zip_length. reflexivity. Qed.
  Lemma lin_mul_eval c l x : eval_at (lin_mul c l) x = (x [-] c) [*] eval_at l x.
  Proof.
    unfold lin_mul. rewrite (IdentityP.eval_add_zip SO) by (rewrite map_length; cbn [length]; lia). rewrite (eval_cons SO), (eval_map_mul SO). ring.
  Qed.
  Definition root_poly (zs : list F) : list F := fold_right lin_mul [fone] zs.
  Lemma root_poly_length zs : length (root_poly zs) = S (length zs).
  Proof. induction zs as [|z zs IH]; [reflexivity|]. cbn [root_poly fold_right]. rewrite lin_mul_length. fold (root_poly zs). rewrite IH. reflexivity. Qed.
  Lemma root_poly_in zs x : In x zs -> eval_at (root_poly zs) x = fzero.
  Proof.
    induction zs as [|z zs IH]; intros H; [destruct H|]. cbn [root_poly fold_right]. rewrite lin_mul_eval. fold (root_poly zs).
    destruct H as [->|H]; [ring|]. rewrite (IH H). ring.
  Qed.
  Lemma root_poly_out zs x : ~ In x zs -> eval_at (root_poly zs) x <> fzero.
  Proof.
    induction zs as [|z zs IH]; intros H E.
    - cbn [root_poly fold_right] in E. rewrite (eval_cons SO), eval_nil in E. apply (fone_neq_zero SO). rewrite <- E. ring.
    - cbn [root_poly fold_right] in E. rewrite lin_mul_eval in E. fold (root_poly zs) in E. apply (fmul_zero SO) in E. destruct E as [E|E].
      + apply H. left. symmetry. apply (fsub_zero SO). exact E.
      + apply IH in E; [exact E|]. intro X. apply H. right. exact X.
  Qed.
  Definition others (zs : list F) (z : F) : list F := filter (fun t => negb (feqb t z)) zs.
  Lemma others_in zs z t : In t (others zs z) <-> In t zs /\ t <> z.
  Proof.
    unfold others. rewrite filter_In. split; intros [H1 H2]; (split; [exact H1|]).
    - intros ->. rewrite (proj2 (feqb_eq SO z z) eq_refl) in H2. discriminate H2.
    - destruct (feqb t z) eqn:E; [|reflexivity]. apply (feqb_eq SO) in E. contradiction.
  Qed.
  Lemma others_length zs z : NoDup zs -> In z zs -> S (length (others zs z)) = length zs.
  Proof.
    induction 1 as [|t zs Ht HD IH]; intro H; [destruct H|]. unfold others. cbn [filter]. destruct H as [->|H].
    - rewrite (proj2 (feqb_eq SO z z) eq_refl). cbn [negb length]. f_equal. fold (others zs z).
      clear IH HD. induction zs as [|s zs IH]; [reflexivity|]. unfold others. cbn [filter]. destruct (feqb s z) eqn:E.
      + apply (feqb_eq SO) in E. subst s. exfalso. apply Ht. left. reflexivity.
      + cbn [negb length]. f_equal. apply IH. intro X. apply Ht. right. exact X.
    - destruct (feqb t z) eqn:E.
      + apply (feqb_eq SO) in E. subst t. contradiction.
      + cbn [negb length]. f_equal. apply IH, H.
  Qed.
  Definition basis (zs : list F) (z : F) : list F :=
    let R := root_poly (others zs z) in map (fun t => t [*] (fone [/] eval_at R z)) R.
  Lemma basis_length zs z : NoDup zs -> In z zs -> length (basis zs z) = length zs.
  Proof. intros HD H. unfold basis. cbv zeta. rewrite map_length, root_poly_length. apply others_length; assumption. Qed.
  Lemma basis_same zs z : eval_at (basis zs z) z = fone.
  Proof.
    unfold basis. cbv zeta. rewrite (eval_map_mul SO). field. apply root_poly_out. rewrite others_in. tauto.
  Qed.
  Lemma basis_other zs z t : In t zs -> t <> z -> eval_at (basis zs z) t = fzero.
  Proof.
    intros H N. unfold basis. cbv zeta. rewrite (eval_map_mul SO), root_poly_in; [ring|]. rewrite others_in. tauto.
  Qed.
  Definition unit_vec (d n : nat) : list F := map (fun m => if m =? n then fone else fzero) (seq 0 d).
  Lemma unit_coeff d n m : coeff (unit_vec d n) m = if (m <? d) && (m =? n) then fone else fzero.
  Proof.
    unfold unit_vec. destruct (Nat.ltb_spec m d).
    - rewrite (coeff_map_seq (fun m => if m =? n then fone else fzero)) by assumption. reflexivity.
    - unfold coeff. rewrite nth_overflow by (rewrite map_length, seq_length; assumption). reflexivity.
  Qed.
  Lemma unit_eval d n x : n < d -> eval_at (unit_vec d n) x = fpow x n.
  Proof.
    intro H. unfold eval_at. rewrite (fsum_delta SO _ n).
    - rewrite unit_coeff, Nat.eqb_refl, (proj2 (Nat.ltb_lt _ _) H). cbn [andb]. ring.
    - unfold unit_vec. rewrite map_length, seq_length. exact H.
    - intros i _ Hi. rewrite unit_coeff. rewrite (proj2 (Nat.eqb_neq _ _) Hi), andb_false_r. ring.
  Qed.
  Section Challenges.
    Context {I : Type} (zof : I -> F) (l : list I) (HD : NoDup (map zof l)).
    Let zs := map zof l.
    Lemma zof_eq i j : In i l -> In j l -> zof i = zof j -> i = j.
    Proof.
      clear zs. induction l as [|a m IH]; intros Hi Hj E; [destruct Hi|]. cbn [map] in HD. apply NoDup_cons_iff in HD. destruct HD as [HN HD'].
      destruct Hi as [->|Hi], Hj as [->|Hj]; [reflexivity| | |apply IH; assumption]; exfalso; apply HN; [rewrite E|rewrite <- E]; apply in_map; assumption.
    Qed.
    Lemma lagrange_eval m t : In t l -> lsum (fun i => fpow (zof i) m [*] eval_at (basis zs (zof i)) (zof t)) l = fpow (zof t) m.
    Proof.
      intro Ht. assert (X : forall l', (forall i, In i l' -> In i l) -> NoDup (map zof l') ->
        lsum (fun i => fpow (zof i) m [*] eval_at (basis zs (zof i)) (zof t)) l' = if existsb (fun i => feqb (zof i) (zof t)) l' then fpow (zof t) m else fzero).
      { induction l' as [|a l' IH]; intros HI HN; [reflexivity|]. cbn [map] in HN. apply NoDup_cons_iff in HN. destruct HN as [Ha HN].
        cbn [lsum existsb]. rewrite IH by (try exact HN; intros i Hi; apply HI; right; exact Hi). destruct (feqb (zof a) (zof t)) eqn:E.
        - apply (feqb_eq SO) in E. cbn [orb]. replace (existsb (fun i => feqb (zof i) (zof t)) l') with false.
          + rewrite E, basis_same. ring.
          + symmetry. apply not_true_iff_false. intro X. apply existsb_exists in X. destruct X as (i & Hi & Ei). apply (feqb_eq SO) in Ei. apply Ha. rewrite E, <- Ei. apply in_map, Hi.
        - cbn [orb]. rewrite basis_other; [ring|apply in_map, Ht|]. intro X. rewrite X, (proj2 (feqb_eq SO _ _) eq_refl) in E. discriminate E. }
      rewrite X by (try exact HD; intros i Hi; exact Hi). replace (existsb _ l) with true; [reflexivity|]. symmetry. apply existsb_exists. exists t. split; [exact Ht|].
      apply (feqb_eq SO). reflexivity.
    Qed.
    Lemma lsum_ext (f g : I -> F) m : (forall i, In i m -> f i = g i) -> lsum f m = lsum g m.
    Proof. induction m as [|i m IH]; intro H; [reflexivity|]. cbn [lsum]. rewrite (H i (or_introl eq_refl)), IH; [reflexivity|]. intros j Hj. apply H. right. exact Hj. Qed.
    Lemma lagrange_coeff m n : m < length l -> lsum (fun i => fpow (zof i) m [*] coeff (basis zs (zof i)) n) l = coeff (unit_vec (length l) m) n.
    Proof.
      intro Hm. assert (LB : forall i, In i l -> length (basis zs (zof i)) = length l).
      { intros i Hi. rewrite basis_length; [apply map_length|exact HD|apply in_map, Hi]. }
      set (S1 := lincomb (length l) (fun i => fpow (zof i) m) (fun i => basis zs (zof i)) l).
      assert (L1 : length S1 = length l) by (apply lincomb_length, LB).
      assert (L2 : length (unit_vec (length l) m) = length l) by (unfold unit_vec; rewrite map_length, seq_length; reflexivity).
      assert (Z : Forall (eq fzero) (vadd S1 (vscale (fneg fone) (unit_vec (length l) m)))).
      { apply (roots_zero SO zs HD).
        - rewrite vadd_length by (rewrite vscale_length; congruence). unfold zs. rewrite map_length. lia.
        - intros z Hz. apply in_map_iff in Hz. destruct Hz as (t & <- & Ht).
          rewrite eval_vadd by (rewrite vscale_length; congruence). rewrite eval_vscale, (unit_eval _ _ _ Hm). unfold S1. rewrite lincomb_eval by exact LB.
          rewrite (lagrange_eval m t Ht). ring. }
      rewrite <- (lincomb_coeff (length l) (fun i => fpow (zof i) m) (fun i => basis zs (zof i))) by exact LB. fold S1.
      destruct (Nat.lt_ge_cases n (length l)) as [Hn|Hn]; [|unfold coeff; rewrite !nth_overflow by lia; reflexivity].
      assert (X : coeff (vadd S1 (vscale (fneg fone) (unit_vec (length l) m))) n = fzero).
      { symmetry. apply (proj1 (Forall_forall _ _) Z). apply nth_In. rewrite vadd_length by (rewrite vscale_length; congruence). lia. }
      rewrite (vadd_coeff CL), (vscale_coeff CL) in X by (rewrite vscale_length; congruence).
      transitivity (coeff S1 n [+] fneg fone [*] coeff (unit_vec (length l) m) n [+] coeff (unit_vec (length l) m) n); [ring|]. rewrite X. ring.
    Qed.
    (** the weights that separate entry [n] of the vectors z^6, .., z, 1 *)
    Definition weight (n : nat) (i : I) : F := coeff (basis zs (zof i)) (6 - n).
    Lemma falling_coeff (z : F) n : n < 7 -> coeff (falling z) n = fpow z (6 - n).
    Proof. intro H. unfold falling, powers, coeff. do 7 (destruct n as [|n]; [reflexivity|]). lia. Qed.
    Lemma falling_length (z : F) : length (falling z) = 7. Proof. reflexivity. Qed.
    Lemma separate n : length l = 7 -> n < 7 -> lincomb 7 (weight n) (fun i => falling (zof i)) l = unit_vec 7 n.
    Proof.
      intros HL Hn. apply (coeff_ext (C := C)).
      - rewrite lincomb_length by (intros; apply falling_length). reflexivity.
      - intros m Hm. rewrite lincomb_length in Hm by (intros; apply falling_length). rewrite lincomb_coeff by (intros; apply falling_length).
        transitivity (lsum (fun i => fpow (zof i) (6 - m) [*] coeff (basis zs (zof i)) (6 - n)) l).
        + apply lsum_ext. intros i _. unfold weight. rewrite (falling_coeff _ m Hm). ring.
        + rewrite lagrange_coeff by lia. rewrite HL, !unit_coeff.
          rewrite (proj2 (Nat.ltb_lt (6 - n) 7)) by lia. rewrite (proj2 (Nat.ltb_lt m 7)) by exact Hm. cbn [andb].
          destruct (Nat.eqb_spec (6 - n) (6 - m)), (Nat.eqb_spec m n); try lia; reflexivity.
    Qed.
  End Challenges.
End Linear.
