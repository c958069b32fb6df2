(** The helper gadgets of recursion.rs. *)
From Coq Require Import String List Bool Arith ZArith Lia Ring Field.
From Verif Require Import Model.FieldTrait Model.Circuits Model.Num Model.Boolean Model.Util Model.Recursion
  Spec.FieldLaws Spec.CircuitSpec Spec.NumSpec Spec.BoolSpec Spec.UtilSpec Spec.CurveSpec
  Proofs.FieldGen Proofs.ZtoF Proofs.CircuitP Proofs.LcP Proofs.NumP Proofs.BoolP Proofs.UnpackP Proofs.ChallengeP.
Import ListNotations.
Open Scope nat_scope.
Open Scope list_scope.

Lemma F2_split {A B} (R : A -> B -> Prop) n l l' : Forall2 R l l' ->
  Forall2 R (firstn n l) (firstn n l') /\ Forall2 R (skipn n l) (skipn n l').
Proof.
  intro H. revert n. induction H as [|a b l l' Hab _ IH]; intros [|n]; cbn [firstn skipn].
  - split; constructor.
  - split; constructor.
  - split; [constructor|constructor; [assumption|]]. specialize (IH 0). cbn [skipn] in IH. apply IH.
  - destruct (IH n). split; [constructor|]; assumption.
Qed.
Lemma F2_nth {A B} (R : A -> B -> Prop) l l' : Forall2 R l l' -> forall i d d', i < length l -> R (nth i l d) (nth i l' d').
Proof.
  induction 1 as [|a b l l' Hab _ IH]; intros i d d' Hi; cbn [length] in Hi; [lia|].
  destruct i; cbn [nth]; [exact Hab|apply IH; lia].
Qed.
Lemma F2_app_inv {A B} (R : A -> B -> Prop) l1 l2 l' : Forall2 R (l1 ++ l2) l' ->
  exists l1' l2', l' = l1' ++ l2' /\ Forall2 R l1 l1' /\ Forall2 R l2 l2'.
Proof. intro H. apply Forall2_app_inv_l in H. destruct H as (a & b & H1 & H2 & ->). eauto. Qed.
Lemma F2_has {F : Field} (w : assignment F) bits bs : Forall2 (bit_has w) bits bs -> Forall2 (bit_is w) bits bs.
Proof. apply bits_has_is. Qed.

Section Gadgets.
  Context {F : Field} {p : Z} {v : F -> Z} (FL : FieldLaws F p v) (one : Var).
  Let OL : OpsLaws F p v := fl_ops _ _ _ FL.
  Add Field Ff : (ffield OL).
  Variable w : assignment F.
  Hypothesis w_one : w one = fone.

  Lemma num_from_bit_is b x : bit_is w b x -> num_val w (num_from_bit b) = of_bit x.
  Proof. intro H. exact H. Qed.
  Lemma num_from_bit_ok b x : bit_has w b x -> num_ok w (num_from_bit b).
  Proof.
    intros [H1 H2]. unfold num_ok, num_val, num_from_bit. cbn [num_value num_var]. rewrite H2, H1. destruct x; reflexivity.
  Qed.

  (** *** equality unless the base case *)
  Lemma num_equal_sound bc b x y : bit_is w bc b ->
    sound w (num_equal_unless_base_case one bc x y) (fun _ => b = true \/ comb_val w x = comb_val w y).
  Proof.
    intro Hb. unfold num_equal_unless_base_case. cbv zeta. repeat sstep. lcv OL.
    rewrite !(comb_lc_val FL one w w_one) in *. unfold bit_is in Hb. rewrite Hb, w_one in *.
    destruct b; [left; reflexivity|right]. cbn [of_bit] in *.
    match goal with H1 : fmul (w ?a) (w ?b) = w ?c, H2 : fadd (fsub (w ?a) ?X) ?Y = fzero, H3 : fadd (fsub (w ?b) fone) fzero = fzero, H4 : w ?c = fzero |- _ =>
      assert (Ea : w a = fsub X Y) by (transitivity (fadd (fadd (fsub (w a) X) Y) (fsub X Y)); [ring|rewrite H2; ring]);
      assert (Eb : w b = fone) by (transitivity (fadd (fadd (fsub (w b) fone) fzero) fone); [ring|rewrite H3; ring]);
      rewrite Ea, Eb, H4 in H1; apply (proj1 (fsub_zero OL _ _)); rewrite <- H1; ring end.
  Qed.
  Lemma num_equal_complete bc b x y : bit_has w bc b -> comb_ok w x -> comb_ok w y -> (b = false -> comb_val w x = comb_val w y) ->
    complete w (num_equal_unless_base_case one bc x y) (fun _ => True).
  Proof.
    intros [Hb1 Hb2] Hx Hy HE. unfold num_equal_unless_base_case. unfold comb_ok in Hx, Hy. rewrite Hx, Hy, Hb2. cbv zeta. cbn [option_map ok_or_missing rbind].
    eapply complete_multiply_k; [reflexivity| |intros a b' c Ea Eb Ec].
    { rewrite (fb_of_bit FL). destruct b; cbn [negb of_bit]; [ring|]. rewrite HE by reflexivity. ring. }
    rewrite (fb_of_bit FL) in Eb. unfold bit_is in Hb1.
    repeat (cstep; [lcv OL; rewrite ?(comb_lc_val FL one w w_one), ?Hb1, ?w_one, ?Ea, ?Eb, ?Ec; try (destruct b; cbn [negb of_bit]); ring|]).
    cstep. exact I.
  Qed.

  Lemma pack_bits_val bits bs : Forall2 (bit_is w) bits bs -> forall comb c,
    comb_val w (pack_bits comb (fz c) bits) = fadd (comb_val w comb) (fz (c * bits_val bs)).
  Proof.
    induction 1 as [|b x bits bs Hb _ IH]; intros comb c; cbn [pack_bits bits_val].
    - rewrite Z.mul_0_r. cbn [fz]. ring.
    - rewrite (fz_double OL), IH, (comb_add_cn_val FL), (n_from_val FL), (num_from_bit_is _ _ Hb). cbn [coeff_val].
      rewrite (of_bit_fz x), Z.mul_add_distr_l, !(fz_add OL), !(fz_mul OL). ring.
  Qed.
  Lemma pack_bits_ok bits bs : Forall2 (bit_has w) bits bs -> forall comb c, comb_ok w comb -> comb_ok w (pack_bits comb c bits).
  Proof.
    induction 1 as [|b x bits bs Hb _ IH]; intros comb c H; cbn [pack_bits]; [exact H|].
    apply IH, (comb_add_cn_ok FL), (n_from_ok FL), (num_from_bit_ok _ _ Hb). exact H.
  Qed.
  Lemma small_bits a : length a <= 250 -> (0 <= bits_val a < p)%Z.
  Proof.
    intro H. pose proof (bits_val_range a) as R. destruct (fl_size _ _ _ FL) as [S _].
    assert (2 ^ Z.of_nat (length a) <= 2 ^ 254)%Z by (apply Z.pow_le_mono_r; lia). lia.
  Qed.
  Lemma pack_one_val bits bs : Forall2 (bit_is w) bits bs -> comb_val w (pack_bits comb_zero fone bits) = fz (bits_val bs).
  Proof.
    intro H. transitivity (comb_val w (pack_bits comb_zero (fz 1) bits)); [reflexivity|].
    rewrite (pack_bits_val _ _ H), (comb_zero_val w), Z.mul_1_l. ring.
  Qed.
  Lemma equal_chunks_sound bc b : bit_is w bc b -> forall fuel l r xs ys, length l <= fuel -> length l = length r ->
    Forall2 (bit_is w) l xs -> Forall2 (bit_is w) r ys ->
    sound w (equal_chunks one fuel bc l r) (fun _ => b = true \/ xs = ys).
  Proof.
    intros Hb fuel. induction fuel as [|fuel IH]; intros l r xs ys HL HE H1 H2.
    - destruct H1; [|cbn in HL; lia]. destruct H2; [|discriminate HE]. apply sound_ret. right. reflexivity.
    - destruct l as [|l0 l']. { inversion H1; subst. destruct H2; [|discriminate HE]. apply sound_ret. right. reflexivity. }
      cbn [equal_chunks]. set (l := l0 :: l') in *. set (n := Nat.min 250 (Nat.min (length l) (length r))).
      assert (Hn : 1 <= n <= 250 /\ n <= length l) by (unfold n, l in *; cbn [length] in *; lia).
      destruct (F2_split _ n _ _ H1) as [A1 A2]. destruct (F2_split _ n _ _ H2) as [B1 B2].
      eapply sound_bind; [apply sound_namespace, (num_equal_sound bc b _ _ Hb)|]. cbv beta. intros _ Q.
      assert (K1 : length (skipn n l) <= fuel) by (rewrite skipn_length; lia).
      assert (K2 : length (skipn n l) = length (skipn n r)) by (rewrite !skipn_length; lia).
      eapply sound_weaken; [apply (IH _ _ _ _ K1 K2 A2 B2)|].
      cbv beta. intros _ [Q2|Q2]; [left; exact Q2|]. destruct Q as [Q|Q]; [left; exact Q|right].
      rewrite (pack_one_val _ _ A1), (pack_one_val _ _ B1) in Q.
      assert (L1 : length (firstn n xs) <= 250) by (rewrite firstn_length; lia).
      assert (L2 : length (firstn n ys) <= 250) by (rewrite firstn_length; lia).
      apply (fz_inj OL) in Q; [|apply small_bits; assumption|apply small_bits; assumption].
      pose proof (Forall2_length _ _ _ H1). pose proof (Forall2_length _ _ _ H2).
      apply bits_val_inj in Q; [|rewrite !firstn_length; lia].
      rewrite <- (firstn_skipn n xs), <- (firstn_skipn n ys), Q, Q2. reflexivity.
  Qed.
  Theorem equal_unless_sound bc b l r xs ys : bit_is w bc b -> Forall2 (bit_is w) l xs -> Forall2 (bit_is w) r ys ->
    sound w (equal_unless_base_case one bc l r) (fun _ => b = true \/ xs = ys).
  Proof.
    intros Hb H1 H2. unfold equal_unless_base_case. apply sound_assert_k. intro E. apply Nat.eqb_eq in E.
    exact (equal_chunks_sound bc b Hb _ _ _ _ _ (le_n _) E H1 H2).
  Qed.
  Lemma equal_chunks_complete bc b : bit_has w bc b -> forall fuel l r xs ys, 
    Forall2 (bit_has w) l xs -> Forall2 (bit_has w) r ys -> (b = false -> xs = ys) ->
    complete w (equal_chunks one fuel bc l r) (fun _ => True).
  Proof.
    intros Hb fuel. induction fuel as [|fuel IH]; intros l r xs ys H1 H2 HQ; [apply complete_ret; exact I|].
    cbn [equal_chunks]. destruct l as [|l0 l']; [apply complete_ret; exact I|].
    set (l := l0 :: l') in *. set (n := Nat.min 250 (Nat.min (length l) (length r))).
    destruct (F2_split _ n _ _ H1) as [A1 A2]. destruct (F2_split _ n _ _ H2) as [B1 B2].
    eapply complete_bind.
    - apply complete_namespace, (num_equal_complete bc b); [exact Hb|apply (pack_bits_ok _ _ A1), (comb_zero_ok w)|apply (pack_bits_ok _ _ B1), (comb_zero_ok w)|].
      intro E. rewrite (pack_one_val _ _ (F2_has _ _ _ A1)), (pack_one_val _ _ (F2_has _ _ _ B1)), (HQ E). reflexivity.
    - intros _ _. apply (IH _ _ _ _ A2 B2). intro E. rewrite (HQ E). reflexivity.
  Qed.
  Theorem equal_unless_complete bc b l r xs ys : bit_has w bc b -> Forall2 (bit_has w) l xs -> Forall2 (bit_has w) r ys ->
    length l = length r -> (b = false -> xs = ys) -> complete w (equal_unless_base_case one bc l r) (fun _ => True).
  Proof.
    intros Hb H1 H2 HL HQ. unfold equal_unless_base_case. apply complete_assert_k; [apply Nat.eqb_eq, HL|].
    exact (equal_chunks_complete bc b Hb _ _ _ _ _ H1 H2 HQ).
  Qed.

  (** *** numbers from bits and bits from numbers *)
  Lemma bits_value_has bits bs : Forall2 (bit_has w) bits bs -> forall a c,
    bits_value (fz a) (fz c) bits = fz (a + c * bits_val bs) :> F.
  Proof.
    induction 1 as [|b x bits bs Hb _ IH]; intros a c; cbn [bits_value bits_val].
    - rewrite Z.mul_0_r, Z.add_0_r. reflexivity.
    - destruct Hb as [_ ->]. rewrite (fz_double OL). destruct x; cbn [Z.b2z].
      + rewrite <- (fz_add OL), IH. f_equal. ring.
      + rewrite IH. f_equal. ring.
  Qed.
  Lemma bits_sum bits bs : Forall2 (bit_is w) bits bs -> lc_val w (bits_lc lc_zero fone bits) = fz (bits_val bs).
  Proof.
    intro H. transitivity (lc_val w (bits_lc lc_zero (fz 1) bits)); [reflexivity|].
    rewrite (bits_lc_val FL w _ _ H), Z.mul_1_l, (lc_val_zero w). ring.
  Qed.
  Theorem obtain_scalar_sound bits bs : Forall2 (bit_is w) bits bs ->
    sound w (obtain_scalar_from_bits bits) (fun n => num_val w n = fz (bits_val bs)).
  Proof.
    intro H. unfold obtain_scalar_from_bits. sstep. unfold num_alloc. repeat sstep. lcv OL. eqz OL. cbn [num_var] in *.
    rewrite (bits_sum _ _ H) in *. unfold num_val. cbn [num_var]. congruence.
  Qed.
  Theorem obtain_scalar_complete bits bs : Forall2 (bit_has w) bits bs ->
    complete w (obtain_scalar_from_bits bits) (fun n => num_ok w n /\ num_val w n = fz (bits_val bs)).
  Proof.
    intro H. unfold obtain_scalar_from_bits.
    ccall (num_alloc_complete w (Ok (bits_value fzero fone bits)) _ eq_refl). intros n [H1 H2].
    assert (E : bits_value fzero fone bits = fz (bits_val bs) :> F).
    { transitivity (bits_value (fz 0) (fz 1) bits : F); [reflexivity|]. rewrite (bits_value_has _ _ H). f_equal. ring. }
    rewrite E in H2. cstep. { lcv OL. rewrite (bits_sum _ _ (F2_has _ _ _ H)). unfold num_val in H2. rewrite H2. ring. }
    cstep. split; [exact H1|exact H2].
  Qed.
  Theorem witness_bits_sound {F2 : Field} (x : F2) :
    sound w (witness_bits_from_fe x) (fun bits => length bits = length (fe_bits x) /\ exists bs, Forall2 (bit_is w) bits bs).
  Proof.
    unfold witness_bits_from_fe. eapply sound_weaken.
    - apply (sound_mapM w _ (fun _ b => exists y, bit_is w b y)). intros y _. apply sound_namespace, (bit_alloc_sound FL).
    - intros bits H. split; [symmetry; exact (Forall2_length _ _ _ H)|]. apply Forall2_exists.
      clear - H. induction H; constructor; assumption.
  Qed.
  Theorem witness_bits_complete {F2 : Field} (x : F2) :
    complete w (witness_bits_from_fe x) (fun bits => Forall2 (bit_has w) bits (fe_bits x)).
  Proof.
    unfold witness_bits_from_fe. eapply complete_weaken.
    - apply (complete_mapM w _ (fun y b => bit_has w b y)). intros y _. apply complete_namespace, (bit_alloc_complete FL one w (Ok y) y eq_refl).
    - intros bits H. clear - H. induction H; constructor; assumption.
  Qed.

  (** *** challenges as scalars *)
  Lemma two_fz : @f_from_u128 F 2 = fz 2.
  Proof.
    apply (ol_inj _ _ _ OL). rewrite (fl_from_u128 _ _ _ FL) by (split; [discriminate|reflexivity]). rewrite (v_fz OL).
    pose proof (ol_odd _ _ _ OL). rewrite Z.mod_small by lia. reflexivity.
  Qed.
  Definition nth_pair (bs : list bool) (i : nat) : bool * bool := (nth (i * 2) bs false, nth (i * 2 + 1) bs false).
  Definition step_acc (acc : Combination F) (b : AllocatedBit) : Combination F :=
    comb_add (comb_add (comb_scale acc (f_from_u128 2)) (comb_from_num (num_one one)))
      (comb_scale (comb_from_num (num_from_bit b)) (fneg (f_from_u128 2))).
  Lemma step_acc_val acc b x : bit_is w b x -> comb_val w (step_acc acc b) =
    (let a := fadd (comb_val w acc) (comb_val w acc) in if x then fsub a fone else fadd a fone).
  Proof.
    intro H. unfold step_acc. rewrite !(comb_add_val FL), !(comb_scale_val FL), !(comb_from_num_val FL), (num_one_val one w w_one), (num_from_bit_is _ _ H), two_fz.
    cbn [fz fposz]. destruct x; cbn [of_bit]; cbv zeta; ring.
  Qed.
  Lemma step_acc_ok acc b x : bit_has w b x -> comb_ok w acc -> comb_ok w (step_acc acc b).
  Proof.
    intros H Ha. unfold step_acc. apply (comb_add_ok FL); [apply (comb_add_ok FL)|].
    - apply (comb_scale_ok FL), Ha.
    - apply (comb_from_num_ok FL), (num_one_ok one w w_one).
    - apply (comb_scale_ok FL), (comb_from_num_ok FL), (num_from_bit_ok _ _ H).
  Qed.
  Lemma challenge_step_sound bits bs acc i : Forall2 (bit_is w) bits bs -> i * 2 + 1 < length bits ->
    sound w (challenge_step one bits acc i) (fun acc' => comb_val w acc' = sstep (comb_val w acc) (nth_pair bs i)).
  Proof.
    intros H Hi. unfold challenge_step. cbv zeta. fold (step_acc acc (nth (i * 2) bits (mkBit None one))).
    assert (H1 : bit_is w (nth (i * 2) bits (mkBit None one)) (nth (i * 2) bs false)) by (apply (F2_nth _ _ _ H); lia).
    assert (H2 : bit_is w (nth (i * 2 + 1) bits (mkBit None one)) (nth (i * 2 + 1) bs false)) by (apply (F2_nth _ _ _ H); lia).
    pose proof (step_acc_val acc _ _ H1) as EA. set (ac := step_acc acc _) in *. set (e := nth (i * 2 + 1) bits _) in *.
    repeat sstep. lcv OL. rewrite (comb_lc_val FL one w w_one) in *. rewrite (comb_add_val FL), (comb_from_val FL), (n_from_val FL).
    unfold num_val. cbn [num_var]. unfold bit_is in H2. rewrite H2 in *. cbn [coeff_val] in *. unfold sstep, nth_pair. cbn [fst snd]. cbv zeta in *.
    set (y := nth (i * 2 + 1) bs false) in *. clearbody y. rewrite <- EA.
    match goal with H3 : fmul (w ?a) (w ?b) = w ?c, H4 : _ = fzero, H5 : fsub (w ?b) ?X = fzero |- _ =>
      apply (proj1 (fsub_zero OL _ _)) in H5; rewrite H5 in H3; apply (proj1 (fsub_zero OL _ _)) in H4;
      rewrite <- H3; assert (Ea : w a = fsub (fmul f_BETA (of_bit y)) (of_bit y)) by (rewrite <- H4; ring); rewrite Ea end.
    destruct y; cbn [of_bit]; ring.
  Qed.
  Lemma challenge_step_complete bits bs acc i : Forall2 (bit_has w) bits bs -> i * 2 + 1 < length bits -> comb_ok w acc ->
    complete w (challenge_step one bits acc i) (fun acc' => comb_ok w acc').
  Proof.
    intros H Hi Hacc. unfold challenge_step. cbv zeta. fold (step_acc acc (nth (i * 2) bits (mkBit None one))).
    assert (H1 : bit_has w (nth (i * 2) bits (mkBit None one)) (nth (i * 2) bs false)) by (apply (F2_nth _ _ _ H); lia).
    assert (H2 : bit_has w (nth (i * 2 + 1) bits (mkBit None one)) (nth (i * 2 + 1) bs false)) by (apply (F2_nth _ _ _ H); lia).
    pose proof (step_acc_ok acc _ _ H1 Hacc) as EA. set (ac := step_acc acc _) in *. set (e := nth (i * 2 + 1) bits _) in *.
    set (y := nth (i * 2 + 1) bs false) in *. destruct H2 as [H2 H3]. unfold comb_ok in EA. rewrite EA, H3. cbn [ok_or_missing rbind].
    eapply complete_multiply_k; [reflexivity|reflexivity|]. intros a b c Ha Hb Hc. unfold bit_is in H2.
    cstep. { lcv OL. rewrite H2, Ha. cbn [coeff_val]. destruct y; cbn [of_bit]; ring. }
    cstep. { lcv OL. rewrite (comb_lc_val FL one w w_one), Hb. ring. }
    cstep. apply (comb_add_ok FL); [exact EA|]. apply (comb_from_ok FL), (n_from_ok FL). unfold num_ok, num_val. cbn [num_value num_var option_map]. rewrite Hc. reflexivity.
  Qed.
  (** the scalar of 128 bits *)
  Definition bits_scalar (bs : list bool) : F := fold_left sstep (map (nth_pair bs) (seq 1 63)) (fadd (fadd fone fone) fone).
  Lemma n_constant_val (x : F) : n_val w (n_constant x) = x.
  Proof. reflexivity. Qed.
  Lemma final_acc_sound acc x : comb_val w acc = x ->
    sound w (newacc <- namespace "final acc value"%string (num_alloc (ok_or_missing (comb_value acc))) ;;
      enforce_zero (lc_sub_lc (lc_from (num_var newacc)) (comb_lc one acc)) ;;; ret newacc)%cs (fun n => num_val w n = x).
  Proof.
    intros <-. sstep. unfold num_alloc. repeat sstep. lcv OL. rewrite (comb_lc_val FL one w w_one) in *. eqz OL. cbn [num_var] in *.
    unfold num_val. cbn [num_var]. congruence.
  Qed.
  Theorem challenge_scalar_sound bits bs : Forall2 (bit_is w) bits bs ->
    sound w (g_get_challenge_scalar one bits) (fun n => num_val w n = bits_scalar bs).
  Proof.
    intro H. unfold g_get_challenge_scalar. apply sound_assert_k. intro HL. apply Nat.eqb_eq in HL.
    eapply sound_bind with (Q1 := fun acc => comb_val w acc = bits_scalar bs); [|intros acc Ha; apply final_acc_sound, Ha].
    eapply sound_weaken. 
    - apply (sound_foldM w _ (fun rest acc => (forall j, In j rest -> j < 64) /\ fold_left sstep (map (nth_pair bs) rest) (comb_val w acc) = bits_scalar bs)).
      + intros x l b [HB E]. assert (Hx : x < 64) by (apply HB; left; reflexivity).
        eapply sound_weaken; [apply (challenge_step_sound bits bs b x H); lia|]. cbv beta. intros acc' ->.
        split; [intros j Hj; apply HB; right; exact Hj|]. rewrite <- E. reflexivity.
      + split; [intros j Hj; apply in_seq in Hj; lia|]. rewrite (comb_from_val FL), n_constant_val. unfold bits_scalar.
        match goal with |- fold_left _ (map _ ?l) _ = fold_left _ (map _ ?l') _ => constr_eq l l' end. reflexivity.
    - cbv beta. intros acc [_ E]. exact E.
  Qed.
  Theorem challenge_scalar_complete bits bs : Forall2 (bit_has w) bits bs -> length bits = 128 ->
    complete w (g_get_challenge_scalar one bits) (fun n => num_ok w n /\ num_val w n = bits_scalar bs).
  Proof.
    intros H HL. apply complete_sound; [|apply challenge_scalar_sound, F2_has, H].
    unfold g_get_challenge_scalar. apply complete_assert_k; [apply Nat.eqb_eq, HL|].
    eapply complete_bind with (Q1 := fun acc => comb_ok w acc).
    - eapply complete_weaken.
      + apply (complete_foldM w _ (fun rest acc => (forall j, In j rest -> j < 64) /\ comb_ok w acc)).
        * intros x l b [HB E]. assert (Hx : x < 64) by (apply HB; left; reflexivity).
          eapply complete_weaken; [apply (challenge_step_complete bits bs b x H); [lia|exact E]|]. cbv beta. intros acc' E'.
          split; [intros j Hj; apply HB; right; exact Hj|exact E'].
        * split; [intros j Hj; apply in_seq in Hj; lia|]. apply (comb_from_ok FL), n_constant_ok.
      + cbv beta. intros acc [_ E]. exact E.
    - intros acc Ha. unfold comb_ok in Ha. rewrite Ha. cbn [ok_or_missing].
      ccall (num_alloc_complete w (Ok (comb_val w acc)) _ eq_refl). intros n [H1 H2].
      cstep. { lcv OL. rewrite (comb_lc_val FL one w w_one). unfold num_val in H2. rewrite H2. ring. }
      cstep. exact H1.
  Qed.
  (** ... is the scalar the library computes from a challenge with these bits *)
  Lemma testbit_bits bs i : Z.testbit (bits_val bs) (Z.of_nat i) = nth i bs false.
  Proof.
    revert i. induction bs as [|b bs IH]; intro i; cbn [bits_val].
    - rewrite Z.testbit_0_l. destruct i; reflexivity.
    - destruct i; cbn [nth].
      + change (Z.of_nat 0) with 0%Z. rewrite Z.bit0_odd, Z.odd_add, Z.odd_mul. destruct b; reflexivity.
      + rewrite <- IH. rewrite Nat2Z.inj_succ, Z.add_comm. destruct b; cbn [Z.b2z].
        * apply Z.testbit_odd_succ. lia.
        * rewrite Z.add_0_r. apply Z.testbit_even_succ. lia.
  Qed.
  Theorem bits_scalar_native {F1 p1 v1} (L1 : FieldLaws F1 p1 v1) (ch : F1) bs : length bs = 128 ->
    (v1 ch mod 2 ^ 128 = bits_val bs)%Z -> bits_scalar bs = get_challenge_scalar ch.
  Proof.
    intros HL E. rewrite (challenge_run L1). unfold bits_scalar, challenge_pairs. f_equal. apply map_ext_in. intros i Hi. apply in_seq in Hi.
    unfold nth_pair. rewrite <- !testbit_bits, <- E.
    rewrite !Z.mod_pow2_bits_low by lia. f_equal; f_equal; lia.
  Qed.

  (** *** b *)
  Notation ns := (map (num_val w)).
  Lemma compute_b_rev_sound cs : forall cis x, length cs = length cis ->
    sound w (g_compute_b_rev one x cs cis) (fun c => comb_val w c = compute_b_rev (num_val w x) (ns cs) (ns cis)).
  Proof.
    induction cs as [|c cs IH]; intros cis x HL; [intros tr a E; inversion E|].
    destruct cis as [|ci cis]; [discriminate HL|]. apply Nat.succ_inj in HL. destruct cs as [|c2 cs].
    - destruct cis; [|discriminate HL]. cbn [g_compute_b_rev compute_b_rev map].
      scall (num_mul_sound FL one w x c). intros t Ht. apply sound_ret.
      rewrite (comb_add_num_val FL), (comb_from_num_val FL), Ht. ring.
    - destruct cis as [|ci2 cis]; [discriminate HL|].
      change (sound w (tmp <- namespace "x * challenges[-1]"%string (num_mul x c) ;;
        let tmp := comb_add_num (comb_from_num ci) tmp in
        x2 <- namespace "x^2"%string (num_mul x x) ;;
        rest <- namespace "b layer"%string (g_compute_b_rev one x2 (c2 :: cs) (ci2 :: cis)) ;;
        b <- comb_mul one rest tmp ;; ret (comb_from_num b))%cs (fun c0 => comb_val w c0 = fmul (fadd (num_val w ci) (fmul (num_val w c) (num_val w x)))
          (compute_b_rev (fsquare (num_val w x)) (ns (c2 :: cs)) (ns (ci2 :: cis))))).
      scall (num_mul_sound FL one w x c). intros t Ht. cbv beta zeta. scall (num_mul_sound FL one w x x). intros x2 Hx2. cbv beta in Hx2.
      scall (IH (ci2 :: cis) x2 HL). intros rest Hr. cbv beta in Hr.
      scall (comb_mul_sound FL one w w_one rest (comb_add_num (comb_from_num ci) t)). intros b Hb. apply sound_ret.
      rewrite (comb_from_num_val FL), Hb, (comb_add_num_val FL), (comb_from_num_val FL), Ht, Hr, (fsquare_mul OL), Hx2.
      generalize (compute_b_rev (fmul (num_val w x) (num_val w x)) (ns (c2 :: cs)) (ns (ci2 :: cis))). intro B. ring.
  Qed.
  Theorem compute_b_sound x cs cis :
    sound w (g_compute_b one x cs cis) (fun c => compute_b (num_val w x) (ns cs) (ns cis) = Some (comb_val w c)).
  Proof.
    unfold g_compute_b. apply sound_assert_k. intro H1. apply Nat.leb_le in H1. apply sound_assert_k. intro H2. apply Nat.eqb_eq in H2.
    eapply sound_weaken; [apply compute_b_rev_sound; rewrite !rev_length; exact H2|]. cbv beta. intros c Hc.
    unfold compute_b. rewrite !map_length, (proj2 (Nat.eqb_neq _ 0)) by lia. rewrite H2, Nat.eqb_refl, Hc, !map_rev. reflexivity.
  Qed.
  Lemma compute_b_rev_complete cs : forall cis x, length cs = length cis -> cs <> [] -> num_ok w x -> Forall (num_ok w) cs -> Forall (num_ok w) cis ->
    complete w (g_compute_b_rev one x cs cis) (fun c => comb_ok w c).
  Proof.
    induction cs as [|c cs IH]; intros cis x HL HN Hx H1 H2; [congruence|].
    destruct cis as [|ci cis]; [discriminate HL|]. apply Nat.succ_inj in HL.
    inversion H1 as [|? ? Hc H1']; subst. inversion H2 as [|? ? Hci H2']; subst. destruct cs as [|c2 cs].
    - destruct cis; [|discriminate HL]. cbn [g_compute_b_rev].
      ccall (num_mul_complete FL one w x c Hx Hc). intros t Ht. apply complete_ret.
      apply (comb_add_num_ok FL); [apply (comb_from_num_ok FL), Hci|exact Ht].
    - destruct cis as [|ci2 cis]; [discriminate HL|].
      change (complete w (tmp <- namespace "x * challenges[-1]"%string (num_mul x c) ;;
        let tmp := comb_add_num (comb_from_num ci) tmp in
        x2 <- namespace "x^2"%string (num_mul x x) ;;
        rest <- namespace "b layer"%string (g_compute_b_rev one x2 (c2 :: cs) (ci2 :: cis)) ;;
        b <- comb_mul one rest tmp ;; ret (comb_from_num b))%cs (fun c0 => comb_ok w c0)).
      ccall (num_mul_complete FL one w x c Hx Hc). intros t Ht. cbv beta zeta. ccall (num_mul_complete FL one w x x Hx Hx). intros x2 Hx2.
      ccall (IH (ci2 :: cis) x2 HL ltac:(discriminate) Hx2 H1' H2'). intros rest Hr.
      assert (Ht' : comb_ok w (comb_add_num (comb_from_num ci) t)) by (apply (comb_add_num_ok FL); [apply (comb_from_num_ok FL), Hci|exact Ht]).
      ccall (comb_mul_complete FL one w w_one rest _ Hr Ht'). intros b Hb. apply complete_ret. apply (comb_from_num_ok FL), Hb.
  Qed.
  Theorem compute_b_complete x cs cis : length cs = length cis -> cs <> [] -> num_ok w x -> Forall (num_ok w) cs -> Forall (num_ok w) cis ->
    complete w (g_compute_b one x cs cis) (fun c => comb_ok w c /\ compute_b (num_val w x) (ns cs) (ns cis) = Some (comb_val w c)).
  Proof.
    intros HL HN Hx H1 H2. apply complete_sound; [|apply compute_b_sound].
    unfold g_compute_b. apply complete_assert_k; [apply Nat.leb_le; destruct cs; [congruence|cbn [length]; lia]|].
    apply complete_assert_k; [apply Nat.eqb_eq, HL|].
    apply compute_b_rev_complete; [rewrite !rev_length; exact HL| |exact Hx|apply Forall_rev, H1|apply Forall_rev, H2].
    intro E. apply HN. rewrite <- (rev_involutive cs), E. reflexivity.
  Qed.
End Gadgets.
