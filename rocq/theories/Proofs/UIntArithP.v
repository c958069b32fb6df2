(** [addmany] and [mul_acc2]. *)
From Coq Require Import String List Bool ZArith Lia Ring Field.
From Verif Require Import Model.FieldTrait Model.Circuits Model.Num Model.Boolean Model.UInt Spec.FieldLaws
  Spec.CircuitSpec Spec.NumSpec Spec.BoolSpec Spec.UIntSpec Proofs.FieldGen Proofs.ZtoF Proofs.CircuitP Proofs.LcP
  Proofs.NumP Proofs.BoolP Proofs.UnpackP Proofs.AlwaysP Proofs.WordP Proofs.UIntP.
Import ListNotations.
Open Scope Z_scope. Open Scope list_scope.

Section UIntArith.
  Context {F : Field} {p : Z} {v : F -> Z} (FL : FieldLaws F p v) (one : Var).
  Let OL : OpsLaws F p v := fl_ops _ _ _ FL.
  Add Field Ff : (ffield OL).
  Variable w : assignment F.
  Hypothesis w_one : w one = fone.

  Lemma add_bits_lc_val bits bs : Forall2 (bool_is w) bits bs -> forall lc c k,
    coeff_val c = fz k ->
    lc_val w (add_bits_lc one lc c bits) = fadd (lc_val w lc) (fz (k * bits_val bs)).
  Proof.
    induction 1 as [|b x bits bs Hb _ IH]; intros lc c k Hc; cbn [add_bits_lc bits_val].
    - rewrite Z.mul_0_r. simpl fz. ring.
    - rewrite (IH _ _ (2 * k)) by (rewrite (coeff_double_val OL), Hc; apply (fz_double OL)).
      rewrite (lc_val_add_lc OL). rewrite (bool_lc_val FL one w w_one b x c Hb), Hc, of_bit_fz.
      replace (2 * k * bits_val bs) with (k * (2 * bits_val bs)) by ring.
      rewrite Z.mul_add_distr_l, (fz_add OL), (fz_mul OL k (Z.b2z x)). ring.
  Qed.
  Lemma word_lc_val n u z lc : word_is w n u z ->
    lc_val w (add_bits_lc one lc COne (u_bits u)) = fadd (lc_val w lc) (fz z).
  Proof.
    intros [H1 H2]. rewrite (add_bits_lc_val _ _ H2 lc COne 1) by reflexivity.
    rewrite Z.mul_1_l, (bits_of_word n z H1). reflexivity.
  Qed.
  Lemma words_lc_val ops zs : Forall2 (word_is w 32) ops zs -> forall lc,
    lc_val w (fold_left (fun lc op => add_bits_lc one lc COne (u_bits op)) ops lc) =
    fadd (lc_val w lc) (fz (fold_right Z.add 0 zs)).
  Proof.
    induction 1 as [|u z ops zs Hu _ IH]; intro lc; cbn [fold_left fold_right].
    - simpl fz. ring.
    - rewrite IH, (word_lc_val 32 u z) by exact Hu. rewrite (fz_add OL). ring.
  Qed.
  Lemma sum_range zs : Forall (in_word 32) zs ->
    0 <= fold_right Z.add 0 zs <= Z.of_nat (length zs) * (2 ^ 32 - 1).
  Proof.
    induction 1 as [|z zs Hz _ IH]; cbn [fold_right length]; [lia|].
    unfold in_word in Hz. change (Z.of_nat 32) with 32 in Hz. rewrite Nat2Z.inj_succ. lia.
  Qed.

  (** the result loop *)
  Lemma result_loop_sound fuel : forall max rv i c lc acc bs,
    Forall2 (bool_is w) acc bs -> coeff_val c = fz (2 ^ Z.of_nat (length bs)) ->
    lc_val w lc = fz (bits_val bs) ->
    sound w (result_loop fuel max rv i c lc acc) (fun '(lc', bits) => exists bs',
      Forall2 (bool_is w) bits bs' /\ lc_val w lc' = fz (bits_val bs') /\
      (length bs' <= length bs + fuel)%nat).
  Proof.
    induction fuel as [|fuel IH]; intros max rv i c lc acc bs HB HC HL; cbn [result_loop].
    - apply sound_ret. exists bs. split; [exact HB|]. split; [exact HL|]. lia.
    - destruct (max =? 0).
      { apply sound_ret. exists bs. split; [exact HB|]. split; [exact HL|]. lia. }
      eapply sound_bind; [apply sound_namespace, (bit_alloc_sound FL)|]. intros b [x Hx].
      eapply sound_weaken; [apply (IH _ _ _ _ _ _ (bs ++ [x]))|].
      + apply Forall2_app; [exact HB|]. repeat constructor. exact Hx.
      + rewrite (coeff_double_val OL), HC, app_length. simpl length.
        rewrite Nat.add_1_r, Nat2Z.inj_succ, Z.pow_succ_r by lia. apply (fz_double OL).
      + rewrite (lc_val_add_cv OL), HL, HC. unfold bit_is in Hx. rewrite Hx, of_bit_fz.
        rewrite bits_val_app, (fz_add OL). cbn [bits_val]. rewrite Z.mul_0_r, Z.add_0_r, (fz_mul OL). reflexivity.
      + intros [lc' bits] (bs' & H1 & H2 & H3). exists bs'. rewrite app_length in H3. simpl in H3.
        split; [exact H1|]. split; [exact H2|]. lia.
  Qed.
  (** its output: allocated bits, and enough of them *)
  Lemma result_loop_shape fuel : forall max rv i c lc acc k,
    0 <= max -> 2 ^ Z.of_nat k <= max -> (k < fuel)%nat ->
    Forall (fun b => exists a, b = Is a) acc ->
    always (@result_loop F fuel max rv i c lc acc) (fun '(lc', bits) =>
      (length acc + k < length bits)%nat /\ Forall (fun b => exists a, b = Is a) bits).
  Proof.
    induction fuel as [|fuel IH]; intros max rv i c lc acc k H0 Hm Hk HA; [lia|]. cbn [result_loop].
    destruct (Z.eqb_spec max 0) as [E|E].
    { pose proof (Z.pow_pos_nonneg 2 (Z.of_nat k)). lia. }
    eapply always_bind with (Q1 := fun _ => True); [apply always_true; auto|]. intros b _.
    assert (HA' : Forall (fun b0 => exists a, b0 = Is a) (acc ++ [Is b])).
    { apply Forall_app. split; [exact HA|]. repeat constructor. eauto. }
    destruct k as [|k].
    - clear IH Hm. revert max H0 E rv i c lc acc b HA HA' Hk. destruct fuel as [|fuel].
      + intros. cbn [result_loop]. apply always_ret. rewrite app_length. simpl. split; [lia|exact HA'].
      + intros. assert (G : forall fuel max rv i c lc acc, Forall (fun b0 => exists a, b0 = Is a) acc ->
          always (@result_loop F fuel max rv i c lc acc) (fun '(lc', bits) =>
            (length acc <= length bits)%nat /\ Forall (fun b => exists a, b = Is a) bits)).
        { clear. induction fuel as [|fuel IH]; intros; cbn [result_loop]; [apply always_ret; split; auto|].
          destruct (max =? 0); [apply always_ret; split; auto|].
          eapply always_bind with (Q1 := fun _ => True); [apply always_true; auto|]. intros b _.
          eapply always_weaken; [apply IH|].
          - apply Forall_app. split; [assumption|]. repeat constructor. eauto.
          - intros [lc' bits] [H1 H2]. rewrite app_length in H1. simpl in H1. split; [lia|exact H2]. }
        eapply always_weaken; [apply G, HA'|]. intros [lc' bits] [H1 H2].
        rewrite app_length in H1. simpl in H1. split; [lia|exact H2].
    - eapply always_weaken; [apply (IH _ _ _ _ _ _ k)|].
      + apply Z.shiftr_nonneg. exact H0.
      + rewrite Z.shiftr_div_pow2 by lia. change (2 ^ 1) with 2. apply Z.div_le_lower_bound; [lia|].
        rewrite Nat2Z.inj_succ, Z.pow_succ_r in Hm by lia. lia.
      + lia.
      + exact HA'.
      + intros [lc' bits] [H1 H2]. rewrite app_length in H1. simpl in H1. split; [lia|exact H2].
  Qed.
  Lemma bits_of_S n z : bits_of (S n) z = bits_of n z ++ [Z.testbit z (Z.of_nat n)].
  Proof. unfold bits_of. rewrite seq_S, map_app. reflexivity. Qed.
  Lemma result_loop_complete fuel z : 0 <= z -> forall n max c lc acc,
    0 <= max < 2 ^ Z.of_nat fuel -> z / 2 ^ Z.of_nat n <= max ->
    Forall2 (bool_has w) acc (bits_of n z) -> coeff_val c = fz (2 ^ Z.of_nat n) ->
    lc_val w lc = fz (bits_val (bits_of n z)) ->
    complete w (result_loop fuel max (Some z) (Z.of_nat n) c lc acc) (fun '(lc', bits) => exists m,
      Forall2 (bool_has w) bits (bits_of m z) /\ lc_val w lc' = fz (bits_val (bits_of m z)) /\
      in_word m z).
  Proof.
    intro Hz.
    assert (G : forall n max, z / 2 ^ Z.of_nat n <= max -> max = 0 -> in_word n z).
    { intros n max H ->. split; [exact Hz|]. pose proof (Z.pow_pos_nonneg 2 (Z.of_nat n)).
      destruct (Z_lt_ge_dec z (2 ^ Z.of_nat n)) as [L|L]; [exact L|].
      assert (1 <= z / 2 ^ Z.of_nat n) by (apply Z.div_le_lower_bound; lia). lia. }
    induction fuel as [|fuel IH]; intros n max c lc acc Hm Hd HB HC HL; cbn [result_loop].
    - apply complete_ret. exists n. split; [exact HB|]. split; [exact HL|].
      apply (G n max Hd). simpl in Hm. lia.
    - destruct (Z.eqb_spec max 0) as [E|E].
      { apply complete_ret. exists n. split; [exact HB|]. split; [exact HL|]. apply (G n max Hd E). }
      eapply complete_bind; [apply complete_namespace, (bit_alloc_complete FL one w _ (Z.testbit z (Z.of_nat n)) eq_refl)|].
      intros b Hb. replace (Z.of_nat n + 1) with (Z.of_nat (S n)) by lia.
      assert (HX : bits_val (bits_of (S n) z) = bits_val (bits_of n z) + 2 ^ Z.of_nat n * Z.b2z (Z.testbit z (Z.of_nat n))).
      { rewrite bits_of_S, bits_val_app, bits_of_length. cbn [bits_val]. ring. }
      apply IH.
      + split; [apply Z.shiftr_nonneg; lia|]. rewrite Z.shiftr_div_pow2 by lia. change (2 ^ 1) with 2.
        apply Z.div_lt_upper_bound; [lia|]. rewrite Nat2Z.inj_succ, Z.pow_succ_r in Hm by lia. lia.
      + rewrite Z.shiftr_div_pow2 by lia. change (2 ^ 1) with 2.
        rewrite Nat2Z.inj_succ, Z.pow_succ_r by lia. rewrite Z.mul_comm.
        rewrite <- Z.div_div by (try apply Z.pow_nonzero; lia). apply Z.div_le_mono; [lia|exact Hd].
      + rewrite bits_of_S. apply Forall2_app; [exact HB|]. repeat constructor; apply Hb.
      + rewrite (coeff_double_val OL), HC, Nat2Z.inj_succ, Z.pow_succ_r by lia. apply (fz_double OL).
      + rewrite (lc_val_add_cv OL), HL, HC, HX. destruct Hb as [Hb _]. unfold bit_is in Hb.
        rewrite Hb, of_bit_fz, (fz_add OL), (fz_mul OL). reflexivity.
  Qed.

  Lemma two64 : 2 ^ 64 < p.
  Proof. pose proof (fl_size _ _ _ FL) as [H _]. eapply Z.lt_trans; [|exact H]. reflexivity. Qed.
  Lemma firstn_low n m z : (n <= m)%nat -> firstn n (bits_of m z) = bits_of n z.
  Proof.
    intro H. symmetry. apply bits_of_eq.
    - rewrite firstn_length, bits_of_length. lia.
    - rewrite bits_val_firstn, bits_of_length, Nat.min_l, bits_of_val by exact H.
      assert (E : 2 ^ Z.of_nat m = 2 ^ Z.of_nat n * 2 ^ Z.of_nat (m - n)).
      { rewrite <- Z.pow_add_r by lia. f_equal. lia. }
      rewrite E, Z.rem_mul_r by (try apply Z.pow_nonzero; try apply Z.pow_pos_nonneg; lia).
      rewrite Z.mul_comm, Z_mod_plus_full. apply Z.mod_mod. apply Z.pow_nonzero; lia.
  Qed.

  (** sums of hints *)
  Lemma hint_sum_inv ops : forall acc z,
    fold_left (fun acc op => omap2 Z.add acc (u_value op)) ops (Some acc) = Some z ->
    exists zs, Forall2 (fun u z => u_value u = Some z) ops zs /\ z = acc + fold_right Z.add 0 zs.
  Proof.
    induction ops as [|u ops IH]; intros acc z; cbn [fold_left].
    - intro H. injection H as <-. exists []. split; [constructor|simpl; ring].
    - destruct (u_value u) as [x|] eqn:E; cbn [omap2].
      + intro H. destruct (IH _ _ H) as (zs & H1 & H2). exists (x :: zs). split; [constructor; assumption|].
        cbn [fold_right]. rewrite H2. ring.
      + intro H. exfalso. revert H. clear. induction ops as [|u' ops IH]; cbn [fold_left omap2]; [discriminate|exact IH].
  Qed.
  Lemma hint_sum_some ops zs : Forall2 (fun u z => u_value u = Some z) ops zs -> forall acc,
    fold_left (fun acc op => omap2 Z.add acc (u_value op)) ops (Some acc) = Some (acc + fold_right Z.add 0 zs).
  Proof.
    induction 1 as [|u z ops zs Hu _ IH]; intro acc; cbn [fold_left fold_right].
    - f_equal. ring.
    - rewrite Hu. cbn [omap2]. rewrite IH. f_equal. ring.
  Qed.
  Lemma constants_hint n u z z' : word_ok w n u z -> forallb bool_is_constant (u_bits u) = true ->
    u_value u = Some z' -> z' = z.
  Proof.
    intros [[H1 H2] H3] HC E. destruct (H3 z' E) as [H4 H5].
    rewrite <- (bits_of_word n z H1), <- (bits_of_word n z' H4). f_equal.
    revert H5. generalize (bits_of n z'). induction H2 as [|b x l l' Hb _ IH]; intros m Hm; inversion Hm; subst; auto.
    cbn [forallb] in HC. apply andb_prop in HC. destruct HC as [HC1 HC2].
    f_equal; [|apply IH; assumption]. destruct b as [b|b|c]; try discriminate HC1. simpl in *. congruence.
  Qed.
  Lemma words_ok_is ops zs n : Forall2 (word_ok w n) ops zs -> Forall2 (word_is w n) ops zs.
  Proof. apply F2_impl. intros a b H. apply H. Qed.
  Lemma words_range ops zs n : Forall2 (word_is w n) ops zs -> Forall (in_word n) zs.
  Proof. induction 1; constructor; auto. apply H. Qed.
  Lemma ADD_word zs : in_word 32 (ADD zs).
  Proof. apply Z.mod_pos_bound. reflexivity. Qed.

  Lemma addmany_sound ops zs : Forall2 (word_ok w 32) ops zs ->
    sound w (u32_addmany one ops) (fun o => word_ok w 32 o (ADD zs)).
  Proof.
    intro HO. unfold u32_addmany. sstep. sstep. cbv zeta.
    apply Nat.leb_le in H. apply Nat.leb_le in H0.
    pose proof (words_ok_is _ _ _ HO) as HI. pose proof (words_range _ _ _ HI) as HR.
    pose proof (sum_range zs HR) as HS. pose proof (F2_length _ _ _ HO) as HLen. rewrite <- HLen in HS.
    set (S := fold_right Z.add 0 zs) in *.
    set (rv := fold_left _ ops (Some 0)). set (max := Z.of_nat (length ops) * (2 ^ 32 - 1)) in *.
    set (lc := fold_left _ ops lc_zero).
    assert (Hlc : lc_val w lc = fz S).
    { unfold lc. rewrite (words_lc_val _ _ HI), lc_val_zero. fold S. ring. }
    set (m := bind (result_loop 64 max rv 0 COne lc_zero []) (fun '(result_lc, result_bits) =>
        bind (enforce_zero (lc_sub_lc lc result_lc)) (fun _ =>
        ret (mkU (firstn 32 result_bits) (option_map (fun v : Z => v mod 2 ^ 32) rv))))).
    assert (G : sound w m (fun o => word_ok w 32 o (ADD zs))).
    { unfold m. eapply sound_bind.
      - apply sound_always.
        + apply (result_loop_sound 64 max rv 0 COne lc_zero [] []); [constructor|reflexivity|reflexivity].
        + apply (result_loop_shape 64 max rv 0 COne lc_zero [] 32); [unfold max; lia| |lia|constructor].
          change (Z.of_nat 32) with 32. unfold max. lia.
      - intros [rlc bits] [(bs & H1 & H2 & H3) [H4 H5]]. sstep. apply sound_ret.
        simpl in H3, H4.
        pose proof (bits_val_range bs) as HBR.
        assert (HB64 : 2 ^ Z.of_nat (length bs) <= 2 ^ 64).
        { apply Z.pow_le_mono_r; lia. }
        pose proof two64 as H64.
        assert (ES : S = bits_val bs).
        { apply (fz_inj OL).
          - unfold max in HS. lia.
          - lia.
          - rewrite (lc_val_sub_lc OL) in H6. apply (proj1 (fsub_zero OL _ _)) in H6. congruence. }
        pose proof (F2_length _ _ _ H1) as HLb.
        assert (EV : bits_val (firstn 32 bs) = ADD zs).
        { rewrite bits_val_firstn, Nat.min_l, <- ES by lia. reflexivity. }
        split.
        + rewrite <- EV. apply word_of_bits; [rewrite firstn_length; lia|]. apply F2_firstn, H1.
        + apply allocated_agree.
          * rewrite firstn_length. lia.
          * rewrite <- (firstn_skipn 32 bits) in H5. apply Forall_app in H5. apply H5.
          * intros z E. destruct rv; [|discriminate E].
            assert (Ez : z = z0 mod 2 ^ 32) by (cbn [option_map] in E; congruence).
            rewrite Ez. apply Z.mod_pos_bound. reflexivity. }
    clearbody m.
    destruct (forallb _ ops) eqn:EC; [|exact G].
    destruct rv as [rz|] eqn:Erv; [|exact G]. cbn [option_map].
    destruct (hint_sum_inv _ _ _ Erv) as (zs' & HZ & Hz).
    assert (Ezs : zs' = zs).
    { clear - HO EC HZ. revert zs' HZ. induction HO as [|u z ops zs Hu _ IH]; intros zs' HZ; inversion HZ; subst; auto.
      cbn [forallb] in EC. apply andb_prop in EC. destruct EC as [E1 E2]. f_equal; [|auto].
      eapply constants_hint; eassumption. }
    subst zs'. cbn in Hz. subst rz. apply sound_ret. apply word_has_ok.
    replace (S mod 2 ^ 32) with (ADD zs) by reflexivity. apply u_constant_has. apply ADD_word.
  Qed.

  Lemma addmany_complete ops zs : (2 <= length ops <= 10)%nat -> Forall2 (word_has w 32) ops zs ->
    complete w (u32_addmany one ops) (fun o => word_has w 32 o (ADD zs)).
  Proof.
    intros HN HO. unfold u32_addmany. cstep; [apply Nat.leb_le; lia|]. cstep; [apply Nat.leb_le; lia|]. cbv zeta.
    assert (HI : Forall2 (word_is w 32) ops zs) by (revert HO; apply F2_impl; apply word_has_is).
    assert (HV : Forall2 (fun u z => u_value u = Some z) ops zs) by (revert HO; apply F2_impl; intros a b H; apply H).
    pose proof (words_range _ _ _ HI) as HR.
    pose proof (sum_range zs HR) as HS. pose proof (F2_length _ _ _ HO) as HLen. rewrite <- HLen in HS.
    rewrite (hint_sum_some _ _ HV 0). rewrite Z.add_0_l.
    set (S := fold_right Z.add 0 zs) in *. set (max := Z.of_nat (length ops) * (2 ^ 32 - 1)) in *.
    set (lc := fold_left _ ops lc_zero).
    assert (Hlc : lc_val w lc = fz S).
    { unfold lc. rewrite (words_lc_val _ _ HI), lc_val_zero. fold S. ring. }
    cbn [option_map].
    destruct (forallb _ ops).
    - apply complete_ret. change (S mod 2 ^ 32) with (ADD zs). apply u_constant_has. apply ADD_word.
    - eapply complete_bind.
      + apply complete_sound with (Q1 := fun '(lc', bits) => exists m,
          Forall2 (bool_has w) bits (bits_of m S) /\ lc_val w lc' = fz (bits_val (bits_of m S)) /\ in_word m S).
        * apply (result_loop_complete 64 S (proj1 HS) 0); try reflexivity.
          -- split; [unfold max; lia|]. unfold max. change (2 ^ Z.of_nat 64) with (2 ^ 64). lia.
          -- change (2 ^ Z.of_nat 0) with 1. rewrite Z.div_1_r. lia.
          -- constructor.
        * apply always_sound. apply (result_loop_shape 64 max (Some S) 0 COne lc_zero [] 32); [unfold max; lia| |lia|constructor].
          change (Z.of_nat 32) with 32. unfold max. lia.
      + intros [rlc bits] [(m & H1 & H2 & H3) [H4 H5]]. simpl in H4. pose proof (F2_length _ _ _ H1) as HLb.
        rewrite bits_of_length in HLb.
        cstep.
        { rewrite (lc_val_sub_lc OL), Hlc, H2, (bits_of_word m S H3). ring. }
        cstep. split; [apply ADD_word|]. split; [|reflexivity]. cbn [u_bits].
        assert (E : bits_of 32 (ADD zs) = firstn 32 (bits_of m S)).
        { rewrite firstn_low by lia. apply bits_of_eq; [apply bits_of_length|].
          rewrite bits_of_val. unfold ADD. change (Z.of_nat 32) with 32. fold S. symmetry. apply Z.mod_mod. discriminate. }
        rewrite E. apply F2_firstn, H1.
  Qed.

  (** mul_acc2 *)
  Lemma u64_lc_val u z : word_is w 64 u z -> lc_val w (u64_lc one u) = fz z.
  Proof. intro H. unfold u64_lc. rewrite (word_lc_val 64 u z lc_zero H), lc_val_zero. ring. Qed.
  Lemma high_coeff : exists x, f_from_bytes bytes_2_64 = Some x :> option F /\ x = fz (2 ^ 64).
  Proof.
    assert (HL : length bytes_2_64 = 32%nat) by reflexivity.
    assert (HB : Forall byte bytes_2_64) by (repeat constructor; discriminate).
    destruct (fl_from_bytes _ _ _ FL bytes_2_64 HL HB) as [H _].
    assert (EV : le_val bytes_2_64 = 2 ^ 64) by reflexivity. rewrite EV in H.
    destruct (H two64) as (x & E1 & E2). exists x. split; [exact E1|].
    apply (ol_inj _ _ _ OL). rewrite (v_fz OL).
    rewrite Z.mod_small; [exact E2|pose proof two64; lia].
  Qed.
  Lemma mul_range a b c d : in_word 64 a -> in_word 64 b -> in_word 64 c -> in_word 64 d ->
    0 <= a * b + c + d < 2 ^ 128.
  Proof. unfold in_word. change (Z.of_nat 64) with 64. intros. nia. Qed.
  Lemma two128 : 2 ^ 128 < p.
  Proof. pose proof (fl_size _ _ _ FL) as [H _]. eapply Z.lt_trans; [|exact H]. reflexivity. Qed.

  Lemma from_u64_fz x : in_word 64 x -> @f_from_u64 F x = fz x.
  Proof.
    intro H. apply (ol_inj _ _ _ OL). rewrite (fl_from_u64 _ _ _ FL) by exact H. rewrite (v_fz OL).
    symmetry. apply Z.mod_small. pose proof two64. unfold in_word in H. change (Z.of_nat 64) with 64 in H. lia.
  Qed.
  Lemma from_u128_fz x : 0 <= x < 2 ^ 128 -> @f_from_u128 F x = fz x.
  Proof.
    intro H. apply (ol_inj _ _ _ OL). rewrite (fl_from_u128 _ _ _ FL) by exact H. rewrite (v_fz OL).
    symmetry. apply Z.mod_small. pose proof two128. lia.
  Qed.
  Lemma bits_val_split n bs : (n <= length bs)%nat ->
    bits_val bs = bits_val (firstn n bs) + 2 ^ Z.of_nat n * bits_val (skipn n bs).
  Proof.
    intro H. rewrite <- (firstn_skipn n bs) at 1. rewrite bits_val_app, firstn_length, Nat.min_l by exact H. reflexivity.
  Qed.

  Lemma mul_acc2_sound ua ub uc ud a b c d :
    word_ok w 64 ua a -> word_ok w 64 ub b -> word_ok w 64 uc c -> word_ok w 64 ud d ->
    sound w (u64_mul_acc2 one ua ub uc ud) (fun '(lo, hi) => exists zl zh,
      word_ok w 64 lo zl /\ word_ok w 64 hi zh /\ zl + 2 ^ 64 * zh = a * b + c + d).
  Proof.
    intros [Ha _] [Hb _] [Hc _] [Hd _]. unfold u64_mul_acc2. cbv zeta.
    eapply sound_bind; [apply sound_always; [apply (alloc_bits_sound FL)|apply alloc_bits_shape]|].
    intros bits [[bs HB] [HL _]]. rewrite hint_bits_length in HL.
    pose proof (F2_length _ _ _ HB) as HLb.
    eapply sound_bind; [apply (u_from_bits_sound w 64 _ (firstn 64 bs)); apply F2_firstn, HB|].
    intros lo [Elo Hlo].
    eapply sound_bind; [apply (u_from_bits_sound w 64 _ (firstn 64 (skipn 64 bs))); apply F2_firstn, F2_skipn, HB|].
    intros hi [Ehi Hhi]. rewrite (firstn_all2 (skipn 64 bs)) in Hhi by (rewrite skipn_length; lia).
    sstep. destruct high_coeff as (hc & E1 & E2). rewrite E1. cbn [unwrap].
    repeat sstep.
    exists (bits_val (firstn 64 bs)), (bits_val (skipn 64 bs)). split; [exact Hlo|]. split; [exact Hhi|].
    rewrite !(lc_val_sub_v OL) in *. rewrite !(lc_val_sub_lc OL) in *.
    rewrite (lc_val_sub_v OL), (lc_val_add_clc OL) in *.
    rewrite (u64_lc_val ua a Ha) in *. rewrite (u64_lc_val ub b Hb) in *.
    rewrite (u64_lc_val uc c Hc) in *. rewrite (u64_lc_val ud d Hd) in *.
    rewrite (u64_lc_val lo _ (proj1 Hlo)) in *. rewrite (u64_lc_val hi _ (proj1 Hhi)) in *.
    cbn [coeff_from coeff_val] in *. subst hc.
    pose proof (mul_range _ _ _ _ (proj1 Ha) (proj1 Hb) (proj1 Hc) (proj1 Hd)) as HM.
    pose proof two128 as H128.
    assert (HS : bits_val bs = bits_val (firstn 64 bs) + 2 ^ 64 * bits_val (skipn 64 bs)).
    { apply (bits_val_split 64). lia. }
    pose proof (bits_val_range bs) as HR. rewrite <- HLb, HL in HR. change (Z.of_nat 128) with 128 in HR.
    rewrite <- HS. apply (fz_inj OL); [lia|lia|].
    rewrite HS, !(fz_add OL), !(fz_mul OL).
    apply (proj1 (fsub_zero OL _ _)) in H0. apply (proj1 (fsub_zero OL _ _)) in H1.
    match goal with H2 : _ = fzero |- _ =>
      let T := type of H2 in idtac;
      transitivity (fadd (lc_val w lc_zero) (fadd (fadd (fmul (fz a) (fz b)) (fz c)) (fz d))) end.
    - rewrite lc_val_zero.
      rewrite H0, H1, H.
      match goal with H2 : ?L = fzero |- ?X = _ => transitivity (fadd X (fneg L)); [rewrite H2; ring|ring] end.
    - rewrite lc_val_zero. ring.
  Qed.

  Lemma mul_acc2_complete ua ub uc ud a b c d :
    word_has w 64 ua a -> word_has w 64 ub b -> word_has w 64 uc c -> word_has w 64 ud d ->
    complete w (u64_mul_acc2 one ua ub uc ud) (fun '(lo, hi) => exists zl zh,
      word_has w 64 lo zl /\ word_has w 64 hi zh /\ zl + 2 ^ 64 * zh = a * b + c + d).
  Proof.
    intros (Ha & Ha' & Ha'') (Hb & Hb' & Hb'') (Hc & Hc' & Hc'') (Hd & Hd' & Hd''). unfold u64_mul_acc2. cbv zeta.
    rewrite Ha'', Hb'', Hc'', Hd''. cbn [omap2 omap3z option_map ok_or_missing rbind hint_bits].
    pose proof (mul_range _ _ _ _ Ha Hb Hc Hd) as HM.
    assert (HP : 0 <= a * b < 2 ^ 128).
    { unfold in_word in *. change (Z.of_nat 64) with 64 in *. nia. }
    set (s := a * b + c + d) in *.
    eapply complete_bind; [apply (alloc_bits_complete FL one w (le_bits 128 s))|].
    intros bits HB. pose proof (F2_length _ _ _ HB) as HLb. change (le_bits 128 s) with (bits_of 128 s) in *.
    rewrite bits_of_length in HLb.
    eapply complete_bind.
    { apply (u_from_bits_complete w 64 _ (firstn 64 (bits_of 128 s))); [rewrite firstn_length; lia|apply F2_firstn, HB]. }
    intros lo [Elo Hlo].
    eapply complete_bind.
    { apply (u_from_bits_complete w 64 _ (firstn 64 (skipn 64 (bits_of 128 s)))); [rewrite firstn_length, skipn_length; lia|apply F2_firstn, F2_skipn, HB]. }
    intros hi [Ehi Hhi]. rewrite (firstn_all2 (skipn 64 (bits_of 128 s))) in Hhi by (rewrite skipn_length, bits_of_length; lia).
    rewrite (from_u64_fz a Ha), (from_u64_fz b Hb), (from_u128_fz (a * b) HP).
    assert (HS : bits_val (bits_of 128 s) = bits_val (firstn 64 (bits_of 128 s)) + 2 ^ 64 * bits_val (skipn 64 (bits_of 128 s))).
    { apply (bits_val_split 64). rewrite bits_of_length. lia. }
    rewrite (bits_of_word 128 s) in HS by exact HM.
    cstep; [reflexivity|symmetry; apply (fz_mul OL)|].
    destruct high_coeff as (hc & E1 & E2). rewrite E1. cbn [unwrap]. cstep. cstep.
    { rewrite (lc_val_sub_v OL), (u64_lc_val ua a) by (apply word_has_is; repeat split; try assumption; apply Ha).
      match goal with H : w _ = fz a |- _ => rewrite H end. ring. }
    cstep.
    { rewrite (lc_val_sub_v OL), (u64_lc_val ub b) by (apply word_has_is; repeat split; try assumption; apply Hb).
      match goal with H : w _ = fz b |- _ => rewrite H end. ring. }
    cstep.
    { rewrite !(lc_val_sub_lc OL), (lc_val_sub_v OL), (lc_val_add_clc OL).
      rewrite (u64_lc_val uc c) by (apply word_has_is; repeat split; try assumption; apply Hc).
      rewrite (u64_lc_val ud d) by (apply word_has_is; repeat split; try assumption; apply Hd).
      rewrite (u64_lc_val lo _ (word_has_is _ _ _ _ Hlo)), (u64_lc_val hi _ (word_has_is _ _ _ _ Hhi)).
      cbn [coeff_from coeff_val]. subst hc. rewrite <- (fz_mul OL), <- (fz_add OL), <- HS.
      match goal with H : w _ = fz (a * b) |- _ => rewrite H end.
      unfold s. rewrite !(fz_add OL). ring. }
    cstep. exists (bits_val (firstn 64 (bits_of 128 s))), (bits_val (skipn 64 (bits_of 128 s))).
    split; [exact Hlo|]. split; [exact Hhi|]. symmetry. exact HS.
  Qed.
End UIntArith.
