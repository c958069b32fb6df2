(** A prover who does not use the witnesses of examples/bitcoin.rs: the circuit accepts
    every amount of work. *)
From Coq Require Import String List Bool ZArith Lia Ring Field.
From Verif Require Import Model.FieldTrait Model.Circuits Model.Num Model.Boolean Model.UInt Model.Sha256 Model.Recursion Model.Bitcoin
  Spec.FieldLaws Spec.CircuitSpec Spec.NumSpec Spec.BoolSpec Spec.UIntSpec Spec.Sha256Spec Spec.BitcoinSpec Spec.UniformSpec
  Proofs.FieldGen Proofs.ZtoF Proofs.CircuitP Proofs.LcP Proofs.NumP Proofs.BoolP Proofs.UnpackP Proofs.AlwaysP
  Proofs.WordP Proofs.UIntP Proofs.UIntArithP Proofs.Sha256P Proofs.BitcoinP Proofs.BitcoinHonestP
  Proofs.AlikeP Proofs.AlikeGadgetsP Proofs.AlikeShaP Proofs.AlikeBitcoinP.
Import ListNotations.
Open Scope string_scope. Open Scope list_scope. Open Scope cs_scope. Open Scope Z_scope.
Local Notation length := List.length.

(** An execution of one program is one of every program that makes the same calls. *)
Section Transfer.
  Context {F : Field}.
  Lemma fails_no_result {A} (p : CS F A) : fails p -> forall tr a, ~ Exec p tr (Some (Ok a)).
  Proof. intro H. induction H; intros tr a E; inversion E; subst; eapply IHfails; eassumption. Qed.
  Lemma alike_exec {A B} inp (R : A -> B -> Prop) (p : CS F A) (q : CS F B) : alike inp (fun _ => True) R p q ->
    forall tr a, Exec p tr (Some (Ok a)) -> exists tr' b, Exec q tr' (Some (Ok b)) /\ R a b /\ (forall w, constraints_hold w tr -> constraints_hold w tr').
  Proof.
    intro H. induction H as [a b HR|p q HF|q|ann v k ann' v' k' He Hk IH|ann v k ann' v' k' Hi He Hk IH|lc k k' HV Hk IH|ann v k ann' v' k' He Hk IH|n n' k k' Hk IH|k k' Hk IH]; intros tr a0 E.
    - inversion E; subst. exists [], b. split; [constructor|]. split; [exact HR|]. intros; constructor.
    - destruct (fails_no_result p HF _ _ E).
    - inversion E.
    - inversion E; subst; try (match goal with X : Exec (k (Err ?e)) _ _ |- _ => destruct (fails_no_result _ (He e) _ _ X) end);
        match goal with X : Exec (k (Ok (?x, ?c))) _ _ |- _ => destruct (IH x c I _ _ X) as (tr' & bb & E' & HR & HC) end;
        (eexists; exists bb; split; [apply ExAlloc_skip with (b := false); exact E'|]; split; [exact HR|]; intros w HW; inversion HW; subst; constructor; [exact I|apply HC; assumption]).
    - inversion E; subst; try (match goal with X : Exec (k (Err ?e)) _ _ |- _ => destruct (fails_no_result _ (He e) _ _ X) end);
        match goal with X : Exec (k (Ok (?x, ?c))) _ _ |- _ => destruct (IH x c I _ _ X) as (tr' & bb & E' & HR & HC) end;
        (eexists; exists bb; split; [apply ExInput_skip with (b := true); exact E'|]; split; [exact HR|]; intros w HW; inversion HW; subst; constructor; [exact I|apply HC; assumption]).
    - inversion E; subst. destruct (IH _ _ ltac:(eassumption)) as (tr' & bb & E' & HR & HC). eexists; exists bb. split; [apply ExLC; exact E'|]. split; [exact HR|].
      intros w HW; inversion HW; subst; constructor; [assumption|apply HC; assumption].
    - inversion E; subst; try (match goal with X : Exec (k (Err ?e)) _ _ |- _ => destruct (fails_no_result _ (He e) _ _ X) end);
        match goal with X : Exec (k (Ok (?x, ?y, ?z, ?c))) _ _ |- _ => destruct (IH x y z c I I I _ _ X) as (tr' & bb & E' & HR & HC) end;
        (eexists; exists bb; split; [apply ExMul_skip with (b := false); exact E'|]; split; [exact HR|]; intros w HW; inversion HW; subst; constructor; [assumption|apply HC; assumption]).
    - inversion E; subst. destruct (IH _ _ ltac:(eassumption)) as (tr' & bb & E' & HR & HC). exists tr', bb. split; [constructor; exact E'|]. tauto.
    - inversion E; subst. destruct (IH _ _ ltac:(eassumption)) as (tr' & bb & E' & HR & HC). exists tr', bb. split; [constructor; exact E'|]. tauto.
  Qed.
End Transfer.

(** The circuit with other witnesses: the power of 256 starts with 0, so that the target
    is 0, and [work] is any number. *)
Section Forged.
  Context {F : Field}.
  Variable one : Var.
  Definition f_unpack_fe (bits : list bool) (num : Num F) : CS F (list AllocatedBit) :=
    bools <- mapM (fun value => namespace "bit i" (bit_alloc (ok_or_missing value))) (map Some bits) ;;
    enforce_zero (lc_sub_lc (bits_lc lc_zero fone bools) (n_lc one num)) ;;;
    ret bools.
  Definition f_unpack_target (self : CompactBits) : CS F (list Boolean) :=
    enforce_zero (bool_lc (cb_mantissa_sign_bit self) one COne) ;;;
    bind (ret tt) (fun _ =>
    target <- namespace "" (bytes_to_bits (Some (repeat 0 32)) 32) ;;
    ret target).
  Definition f_unpack_power (self : CompactBits) : CS F (AllocatedNum F) :=
    base <- namespace "" (num_alloc (Ok (f_from_u64 256))) ;;
    enforce_zero (lc_sub_cv (num_lc base) (CFull (f_from_u64 256)) one) ;;;
    assert_ (length (cb_size_bits self) =? 8)%nat ;;;
    b5 <- index (cb_size_bits self) 5 ;; enforce_zero (bool_lc b5 one COne) ;;;
    b6 <- index (cb_size_bits self) 6 ;; enforce_zero (bool_lc b6 one COne) ;;;
    b7 <- index (cb_size_bits self) 7 ;; enforce_zero (bool_lc b7 one COne) ;;;
    pow_size <- namespace "" (num_alloc (Ok fzero)) ;;
    foldM (pow_step one base) (skipn 3 (rev (cb_size_bits self))) pow_size.
  Definition f_unpack (mantissa : F) (self : CompactBits) : CS F (list Boolean) :=
    target <- f_unpack_target self ;;
    pow_size <- f_unpack_power self ;;
    '(a_var, b_var, c_var, _) <- multiply "" (Ok (mantissa, fzero, fzero)) ;;
    '(d_var, e_var, f_var, _) <- multiply "" (Ok (fzero, f_from_u64 0x01000000, fzero)) ;;
    enforce_zero (lc_sub_v (lc_from_bits one (cb_mantissa_bits self)) a_var) ;;;
    enforce_zero (lc_sub_v (lc_from_bits one target) c_var) ;;;
    enforce_zero (lc_sub_v (lc_from b_var) d_var) ;;;
    enforce_zero (lc_sub_cv (lc_from e_var) (CFull (f_from_u64 0x01000000)) one) ;;;
    enforce_zero (lc_sub_v (num_lc pow_size) f_var) ;;;
    ret target.
  Definition f_header_work (work : Z) (target : list Boolean) : CS F (AllocatedNum F) :=
    target_p1_limbs <- four_limbs (Constant true :: skipn 1 target) ;;
    block_work_val <- ret (Ok (fz work)) ;;
    block_work <- namespace "" (num_alloc block_work_val) ;;
    work_bits <- namespace "" (f_unpack_fe (low_bits 256 work) (n_from block_work)) ;;
    work_limbs <- four_limbs (map Is work_bits) ;;
    remainder_val <- ret (Ok (fz (2 ^ 256 - work))) ;;
    remainder <- namespace "" (num_alloc remainder_val) ;;
    remainder_bits <- namespace "" (f_unpack_fe (low_bits 256 (2 ^ 256 - work)) (n_from remainder)) ;;
    remainder_limbs <- four_limbs (map Is remainder_bits) ;;
    w <- mul_limbs one target_p1_limbs work_limbs (remainder_limbs ++ repeat (u_constant 64 0) 4) ;;
    w0 <- index w 0 ;; enforce_zero (u64_lc one w0) ;;;
    w1 <- index w 1 ;; enforce_zero (u64_lc one w1) ;;;
    w2 <- index w 2 ;; enforce_zero (u64_lc one w2) ;;;
    w3 <- index w 3 ;; enforce_zero (u64_lc one w3) ;;;
    w4 <- index w 4 ;; enforce_zero (lc_sub_v (u64_lc one w4) one) ;;;
    w5 <- index w 5 ;; enforce_zero (u64_lc one w5) ;;;
    w6 <- index w 6 ;; enforce_zero (u64_lc one w6) ;;;
    w7 <- index w 7 ;; enforce_zero (u64_lc one w7) ;;;
    ret block_work.
  Definition f_synthesize (mantissa : F) (work : Z) (old_payload new_payload : list AllocatedBit) : CS F unit :=
    '(prev_height, prev_chain_work, prev_header_bits) <- namespace "" (unpack_payload_bits one old_payload) ;;
    '(height, chain_work, header_bits) <- namespace "" (unpack_payload_bits one new_payload) ;;
    header_links one prev_height height prev_header_bits header_bits ;;;
    compact <- from_header header_bits ;;
    target <- namespace "" (f_unpack mantissa compact) ;;
    block_work <- f_header_work work target ;;
    enforce_zero (lc_sub_lc (lc_sub_lc (num_lc chain_work) (num_lc prev_chain_work)) (num_lc block_work)) ;;;
    ret tt.
End Forged.

(** The calls are the same. *)
Section ForgedAlike.
  Context {F : Field}.
  Variables (inp : Prop) (V : Var -> Prop) (one : Var).
  Hypothesis V1 : V one.
  Hypothesis H256 : forall x : F, length (fe_bits x) = 256%nat.
  Local Notation alike := (@alike F inp V _ _).
  Local Notation Rbool := (Rbool V).
  Local Notation Rnum := (@Rnum F V).
  Local Notation RNum := (@RNum F V).
  Local Notation RW := (RW V).
  Local Notation RB := (Forall2 Rbool).
  Ltac lcs := repeat first [apply RLC_sub_v | apply RLC_sub_lc | apply RLC_add_clc | apply RLC_u64 | apply RLC_lc_from_bits | solve [rel] | assumption | reflexivity].

  Lemma FA_unpack_fe bits n n' : length bits = 256%nat -> RNum n n' -> alike (fun l l' => Forall2 (same_bit V) l l') (f_unpack_fe one bits n) (unpack_fe one n').
  Proof.
    intros HL H. unfold f_unpack_fe, unpack_fe. cbv zeta.
    assert (L2 : length (match n_value n' with Some value => map Some (fe_bits value) | None => repeat None 256 end) = 256%nat).
    { destruct (n_value n'); [rewrite map_length; apply H256|apply repeat_length]. }
    assert (L1 : length (map Some bits) = 256%nat) by (rewrite map_length; exact HL).
    revert L1 L2. generalize (map Some bits). generalize (match n_value n' with Some value => map Some (fe_bits value) | None => repeat None 256 end).
    intros l' l L1 L2. rewrite <- L2 in L1. clear L2 HL.
    eapply (alike_bind _ _ (fun bs bs' => Forall2 (same_bit V) bs bs')).
    - apply (alike_mapM inp V (fun _ _ => True)).
      + intros a b _. apply alike_ns. unfold bit_alloc. repeat astep. rel.
      + revert l' L1. induction l as [|x l IH]; intros [|y l'] E; try discriminate E; constructor; auto.
    - intros bs bs' Hb. astep. astep. exact Hb.
  Qed.
  Lemma FA_unpack_target hs c c' : RCB V hs c c' -> (4 <= size_of hs < 32)%Z ->
    alike (fun r r' => RB r (fst r') /\ snd r' = Some (tbytes hs)) (f_unpack_target one c) (unpack_target one c').
  Proof.
    intros (H1 & H2 & H3 & H4 & H5) HS. unfold f_unpack_target, unpack_target. astep. rewrite H4, H5. fold (tbytes hs).
    eapply (alike_bind inp V (fun _ v' => v' = Some (tbytes hs))).
    - replace ((3 <=? size_of hs)%Z && (size_of hs <=? 32)%Z) with true by (symmetry; apply andb_true_iff; split; apply Z.leb_le; lia).
      apply alike_ret. reflexivity.
    - intros tv tv' ->. eapply alike_nsb; [apply A_bytes_to_bits|]. intros t t' Ht. astep. cbn [fst snd]. split; [exact Ht|reflexivity].
  Qed.
  Lemma FA_unpack_power hs c c' : RCB V hs c c' -> alike Rnum (f_unpack_power one c) (unpack_power one c').
  Proof.
    intros (H1 & H2 & H3 & H4 & H5). unfold f_unpack_power, unpack_power. astep. astep. rewrite <- (AlikeShaP.F2_length _ _ _ H3). astep; [tauto|].
    apply (index_alike inp V Rbool); [exact H3|]. intros b5 b5' B5. astep. apply (index_alike inp V Rbool); [exact H3|]. intros b6 b6' B6. astep.
    apply (index_alike inp V Rbool); [exact H3|]. intros b7 b7' B7. astep. astep.
    apply (alike_foldM inp V Rbool Rnum); [|apply AlikeShaP.F2_skipn, F2_rev, H3|rel]. intros a a' z y Ha Hz. apply A_pow_step; [exact V1|rel|assumption|assumption].
  Qed.
  Lemma FA_unpack m hs c c' : RCB V hs c c' -> (4 <= size_of hs < 32)%Z ->
    alike (fun r r' => RB r (fst r') /\ snd r' = Some (u256_from_le (tbytes hs))) (f_unpack one m c) (unpack one c').
  Proof.
    intros H HS. unfold f_unpack, unpack. eapply alike_bind; [apply (FA_unpack_target hs); assumption|]. intros t [t' v'] [Ht Hv]. cbn [fst snd] in Ht, Hv. subst v'.
    eapply alike_bind; [apply (FA_unpack_power hs); assumption|]. intros n n' Hn. cbv zeta. destruct H as (H1 & H2 & H3 & H4 & H5).
    astep. astep. apply alike_lcb; [lcs|]. apply alike_lcb; [lcs|]. astep. astep. astep. astep. cbn [fst snd option_map]. split; [exact Ht|reflexivity].
  Qed.
  Lemma FA_header_work work tg tg' t : RB tg tg' -> (256 <= t < 2 ^ 250)%Z -> alike Rnum (f_header_work one work tg) (header_work one tg' (Some t)).
  Proof.
    intros H Ht. destruct (work_known (F := F) t Ht) as [W1 W2]. unfold f_header_work, header_work. cbv zeta.
    eapply alike_bind; [apply A_limbs; constructor; [constructor|apply AlikeShaP.F2_skipn, H]|]. intros tl tl' Htl.
    destruct (block_work_of t) as [wv'|] eqn:E1; [|congruence]. destruct (remainder_of t) as [rv'|] eqn:E2; [|congruence].
    eapply (alike_bind inp V (fun _ _ => True)); [unfold from_target; rewrite E1; apply alike_ret; exact I|]. intros wv wv2 _. astep.
    eapply alike_nsb; [apply FA_unpack_fe; [apply low_bits_length|rel]|]. intros wb wb' Hwb.
    eapply alike_bind; [apply A_limbs; eapply F2_map; [|exact Hwb]; intros a b Hab; exact Hab|]. intros wl wl' Hwl.
    eapply (alike_bind inp V (fun _ _ => True)); [unfold from_target; rewrite E2; apply alike_ret; exact I|]. intros rv rv2 _. astep.
    eapply alike_nsb; [apply FA_unpack_fe; [apply low_bits_length|rel]|]. intros rb rb' Hrb.
    eapply alike_bind; [apply A_limbs; eapply F2_map; [|exact Hrb]; intros a b Hab; exact Hab|]. intros rl rl' Hrl.
    eapply alike_bind; [apply A_mul_limbs; [exact V1|exact Htl|exact Hwl|apply Forall2_app; [exact Hrl|repeat constructor; apply RW_const]]|]. intros w w' Hw.
    do 8 (apply (index_alike inp V RW); [exact Hw|]; intros ? ? ?; apply alike_lcb; [lcs|]). astep. rel.
  Qed.
  Theorem FA_bitcoin m work old new old' new' bits : Forall2 (same_bit V) old old' -> Forall2 (same_bit V) new new' -> map bit_value new' = map Some bits -> has_target bits ->
    alike (fun _ _ => True) (f_synthesize one m work old new) (bitcoin_synthesize one old' new').
  Proof.
    intros HO HN HB [HS HM]. unfold f_synthesize, bitcoin_synthesize.
    eapply alike_nsb; [apply A_payload; [exact V1|exact HO]|]. intros [[ph pc] pb] [[ph' pc'] pb'] ((R1 & R2 & R3) & N1 & L1 & _). cbn [fst snd] in *.
    eapply alike_nsb; [apply A_payload; [exact V1|exact HN]|]. intros [[h c] hb] [[h' c'] hb'] ((Q1 & Q2 & Q3) & N2 & L2 & E2). cbn [fst snd] in *.
    eapply alike_bind; [apply A_links; assumption|]. intros ? ? _.
    assert (KB : map bit_value (firstn 640 (skipn 288 new')) = map Some (header_of bits)) by (apply mapeq_first, HB).
    assert (HL : length (header_of bits) = 640%nat).
    { rewrite <- (map_length Some), <- KB, map_length. rewrite <- (map_length Is), <- E2, <- (AlikeShaP.F2_length _ _ _ Q3). exact L2. }
    eapply alike_bind; [apply (A_from_header inp V hb hb' _ (header_of bits) Q3 E2 KB HL); apply HS|]. intros cb cb' Hcb.
    eapply alike_nsb; [apply (FA_unpack m (header_of bits)); assumption|]. intros tg [tg' tv'] [Htg Htv]. cbn [fst snd] in Htg, Htv. subst tv'.
    eapply alike_bind; [apply FA_header_work; [exact Htg|apply target_known; assumption]|]. intros bw bw' Hbw. astep. astep. exact I.
  Qed.
End ForgedAlike.

(** The witnesses satisfy the constraints. *)
Section ForgedComplete.
  Context {F : Field} {p : Z} {v : F -> Z} (FL : FieldLaws F p v) (one : Var).
  Let OL : OpsLaws F p v := fl_ops _ _ _ FL.
  Add Field Ff : (ffield OL).
  Variable w : assignment F.
  Hypothesis w_one : w one = fone.

  Lemma FC_unpack_fe bits num : n_val w num = fz (bits_val bits) ->
    complete w (f_unpack_fe one bits num) (fun l => Forall2 (bit_has w) l bits).
  Proof.
    intro Hn. unfold f_unpack_fe.
    eapply complete_bind; [apply (complete_mapM_bits FL one)|]. intros l Hb.
    cstep.
    - rewrite (lc_val_sub_lc OL), (n_lc_val FL one w w_one). change (@fone F) with (@fz F 1).
      rewrite (bits_lc_val FL w _ _ (bits_has_is w _ _ Hb)), lc_val_zero, Z.mul_1_l, Hn. ring.
    - cstep. exact Hb.
  Qed.
  Lemma FC_power self ss : Forall2 (bool_has w) (cb_size_bits self) ss -> length ss = 8%nat -> bits_val ss < 32 ->
    complete w (f_unpack_power one self) (fun n => num_ok w n /\ num_val w n = fzero).
  Proof.
    intros H HL H32. unfold f_unpack_power.
    eapply complete_bind; [apply complete_namespace, (num_alloc_complete w); reflexivity|]. intros base [OB EB].
    rewrite (from_u64_256 FL) in EB by lia.
    cstep. { rewrite (lc_val_sub_cv OL), (num_lc_val FL), EB, w_one. cbn [coeff_val]. rewrite (from_u64_256 FL) by lia. ring. }
    cstep. { apply Nat.eqb_eq. rewrite (AlikeShaP.F2_length _ _ _ H). exact HL. }
    destruct ss as [|s0 [|s1 [|s2 [|s3 [|s4 [|s5 [|s6 [|s7 [|? ?]]]]]]]]]; try discriminate HL.
    assert (S567 : s5 = false /\ s6 = false /\ s7 = false).
    { cbn [bits_val] in H32. destruct s0, s1, s2, s3, s4, s5, s6, s7; cbn [Z.b2z] in H32; try lia; auto. }
    destruct S567 as (-> & -> & ->).
    destruct (cb_size_bits self) as [|c0 [|c1 [|c2 [|c3 [|c4 [|c5 [|c6 [|c7 [|? ?]]]]]]]]]; try (apply AlikeShaP.F2_length in H; discriminate H).
    repeat match goal with H : Forall2 _ (_ :: _) _ |- _ => inversion H; subst; clear H end.
    cbn [index nth_error unwrap].
    assert (Z0 : forall c, bool_has w c false -> lc_val w (bool_lc c one COne) = fzero).
    { intros c [Hc _]. rewrite (bool_lc1_val FL one w w_one c false Hc). reflexivity. }
    cstep. cstep; [apply Z0; assumption|]. cstep. cstep; [apply Z0; assumption|]. cstep. cstep; [apply Z0; assumption|].
    eapply complete_bind; [apply complete_namespace, (num_alloc_complete w); reflexivity|]. intros st [OS ES].
    cbn [rev app skipn foldM].
    assert (STEP : forall n b x, num_ok w n -> num_val w n = fzero -> bool_has w b x -> complete w (pow_step one base n b) (fun n' => num_ok w n' /\ num_val w n' = fzero)).
    { intros n b x On En Hb. eapply complete_weaken; [apply (pow_step_complete FL one w w_one base n b x); assumption|]. intros n' [On' En']. split; [exact On'|].
      rewrite En', En. ring. }
    eapply complete_bind; [eapply STEP; eassumption|]. intros n4 [O4 E4].
    eapply complete_bind; [eapply STEP; eassumption|]. intros n3 [O3 E3].
    eapply complete_bind; [eapply STEP; eassumption|]. intros n2 [O2 E2].
    eapply complete_bind; [eapply STEP; eassumption|]. intros n1 [O1 E1].
    eapply complete_bind; [eapply STEP; eassumption|]. intros n0 [O0 E0]. cstep.
    split; [exact O0|exact E0].
  Qed.
  Lemma FC_unpack self ms ss : Forall2 (bool_has w) (cb_mantissa_bits self) ms -> bool_has w (cb_mantissa_sign_bit self) false ->
    Forall2 (bool_has w) (cb_size_bits self) ss -> length ss = 8%nat -> bits_val ss < 32 ->
    complete w (f_unpack one (fz (bits_val ms)) self) (fun target => Forall2 (bool_has w) target (repeat false 256)).
  Proof.
    intros HM HG HS HL H32. unfold f_unpack.
    eapply (complete_bind _ _ _ (fun target => Forall2 (bool_has w) target (repeat false 256))).
    { unfold f_unpack_target.
      cstep. { rewrite (bool_lc1_val FL one w w_one _ _ (bool_has_is w _ _ HG)). reflexivity. }
      cstep. eapply complete_bind; [apply complete_namespace, (bytes_to_bits_complete FL one w (repeat 0 32))|]. intros o Ho. cstep. exact Ho. }
    intros target Ht.
    eapply complete_bind; [apply (FC_power self ss HS HL H32)|]. intros pw [OP EP].
    pose proof (lc_from_bits_val FL one w w_one _ _ (bools_has_is w _ _ HM)) as LM.
    pose proof (lc_from_bits_val FL one w w_one _ _ (bools_has_is w _ _ Ht)) as LT.
    assert (E0 : bits_val (repeat false 256) = 0) by reflexivity. rewrite E0, fz_0 in LT. clear E0.
    generalize dependent (@fz F (bits_val ms)). intros fM LM. generalize (@f_from_u64 F 16777216). intro k.
    cstep; [reflexivity|ring|]. cstep; [reflexivity|ring|].
    repeat (cstep; [first [rewrite (lc_val_sub_v OL) | rewrite (lc_val_sub_cv OL)]; rewrite ?(lc_val_from OL), ?(num_lc_val FL), ?w_one; cbn [coeff_val]; idtac|]).
    - rewrite LM, H. ring.
    - rewrite LT, H1. ring.
    - rewrite H0, H2. ring.
    - rewrite H3. ring.
    - rewrite EP, H4. ring.
    - cstep. exact Ht.
  Qed.
  Lemma FC_header_work target W : 0 < W < 2 ^ 256 -> Forall2 (bool_has w) target (repeat false 256) ->
    complete w (f_header_work one W target) (fun n => num_val w n = fz W).
  Proof.
    intros HW HT. unfold f_header_work.
    assert (HL : length target = 256%nat) by (rewrite (AlikeShaP.F2_length _ _ _ HT); apply repeat_length).
    destruct target as [|b0 target]; [discriminate HL|]. change (repeat false 256) with (false :: repeat false 255) in HT. inversion HT as [|? ? ? ? Hb0 HT']; subst. cbn [skipn].
    assert (HP : Forall2 (bool_has w) (Constant true :: target) (true :: repeat false 255)) by (constructor; [split; reflexivity|exact HT']).
    assert (ET : bits_val (true :: repeat false 255) = 1) by reflexivity.
    eapply complete_bind; [exact (four_limbs_complete w (Constant true :: target) _ HL HP)|]. intros tl (t0 & t1 & t2 & t3 & FT & VT).
    assert (UP : forall z, 0 <= z < 2 ^ 256 -> bits_val (low_bits 256 z) = z) by (intros z Hz; rewrite low_bits_val; apply Z.mod_small; exact Hz).
    cstep.
    eapply complete_bind; [apply complete_namespace, (num_alloc_complete w); reflexivity|]. intros bw [OW EW].
    assert (bits_bools : forall bits bs, Forall2 (bit_has w) bits bs -> Forall2 (bool_has w) (map Is bits) bs).
    { intros bits bs HH. induction HH as [|? ? ? ? Hx HH IH]; constructor; auto. }
    eapply complete_bind; [apply complete_namespace, (FC_unpack_fe (low_bits 256 W)); rewrite (n_from_val FL), UP by lia; exact EW|]. intros wb BW.
    eapply complete_bind; [apply (four_limbs_complete w (map Is wb) (low_bits 256 W)); [rewrite map_length, (AlikeShaP.F2_length _ _ _ BW); apply low_bits_length|apply bits_bools, BW]|].
    intros xl (x0' & x1 & x2 & x3 & FX & VX).
    cstep.
    eapply complete_bind; [apply complete_namespace, (num_alloc_complete w); reflexivity|]. intros rn [OR ER].
    eapply complete_bind; [apply complete_namespace, (FC_unpack_fe (low_bits 256 (2 ^ 256 - W))); rewrite (n_from_val FL), UP by lia; exact ER|]. intros rb BR.
    eapply complete_bind; [apply (four_limbs_complete w (map Is rb) (low_bits 256 (2 ^ 256 - W))); [rewrite map_length, (AlikeShaP.F2_length _ _ _ BR); apply low_bits_length|apply bits_bools, BR]|].
    intros rl (r0 & r1 & r2 & r3 & FR & VR').
    eapply complete_bind; [apply (mul_limbs_complete FL one w w_one _ _ _ _ _ _ _ _ _ _ _ _ _ _ _ FT FX FR)|]. intros zl (zw & FZ & LZ & VZ).
    rewrite <- VT, <- VX, <- VR', ET, !UP in VZ by lia.
    assert (EZ : zw = [0; 0; 0; 0; 1; 0; 0; 0]).
    { apply limbs_unique; [exact LZ| | |].
      - clear - FZ. induction FZ as [|u z us zs [[H _] _] _ IH]; constructor; assumption.
      - repeat constructor; discriminate.
      - rewrite VZ. transitivity (2 ^ 256); [ring|reflexivity]. }
    subst zw. clear VZ LZ.
    repeat match goal with H : Forall2 (ok64 w) _ (_ :: _) |- _ => inversion H; subst; clear H end.
    match goal with H : Forall2 (ok64 w) _ [] |- _ => inversion H; subst; clear H end.
    assert (K : forall u z, ok64 w u z -> lc_val w (u64_lc one u) = fz z) by (intros u z [HU _]; apply (u64_lc_val FL one w w_one), HU).
    cbn [index nth_error unwrap].
    repeat (cstep; [first [erewrite K by eassumption; apply fz_0 | rewrite (lc_val_sub_v OL); erewrite K by eassumption; rewrite w_one, fz_1; ring]|] || cstep).
    exact EW.
  Qed.
  Theorem FC_bitcoin W old new ob nb : Forall2 (bit_has w) old ob -> Forall2 (bit_has w) new nb ->
    (928 <= length ob)%nat -> (928 <= length nb)%nat ->
    height_of nb = height_of ob + 1 ->
    bits_val (prev_hash_of (header_of nb)) mod p = bits_val (double_sha256 (header_of ob)) mod p ->
    negative_target (header_of nb) = false -> 4 <= size_of (header_of nb) < 32 ->
    0 < W < 2 ^ 256 -> chain_work_of nb mod p = (chain_work_of ob + W) mod p ->
    complete w (f_synthesize one (fz (mantissa_of (header_of nb))) W old new) (fun _ => True).
  Proof.
    intros HO HN LO LN Hh Hq Hg Hs HW Hc. unfold f_synthesize. set (hs := header_of nb) in *.
    assert (HL : length hs = 640%nat) by (apply header_length, LN).
    eapply complete_bind; [apply complete_namespace, (unpack_payload_complete FL one w w_one old ob HO LO)|]. intros [[ph pc] phb] (Eph & Epc & Fph).
    eapply complete_bind; [apply complete_namespace, (unpack_payload_complete FL one w w_one new nb HN LN)|]. intros [[h c] hb] (Eh & Ec & Fh). fold hs in Fh.
    eapply complete_bind.
    { apply (header_links_complete FL one w w_one ph h phb hb (height_of ob) (height_of nb) (header_of ob) hs); try assumption. apply header_length, LO. }
    intros ? _.
    eapply complete_bind; [apply (from_header_complete w hb hs HL Fh); lia|]. intros cb (Fm & Fg & Fs & Es & Em).
    rewrite Hg in Fg.
    eapply complete_bind.
    { apply complete_namespace. refine (FC_unpack cb _ _ Fm Fg Fs _ _); [apply field_length; lia|apply Hs]. }
    intros target FT.
    eapply complete_bind; [apply (FC_header_work target W HW FT)|].
    intros bw Ew.
    cstep.
    - rewrite !(lc_val_sub_lc OL), !(num_lc_val FL), Ec, Epc, Ew. apply (fz_eq OL) in Hc. rewrite Hc, (fz_add OL). ring.
    - cstep. exact I.
  Qed.
End ForgedComplete.
