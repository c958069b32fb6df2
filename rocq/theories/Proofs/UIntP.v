(** The word gadgets. *)
From Coq Require Import String List Bool ZArith Lia Ring Field.
From Verif Require Import Model.FieldTrait Model.Circuits Model.Num Model.Boolean Model.UInt Spec.FieldLaws
  Spec.CircuitSpec Spec.NumSpec Spec.BoolSpec Spec.UIntSpec Proofs.FieldGen Proofs.ZtoF Proofs.CircuitP Proofs.LcP
  Proofs.NumP Proofs.BoolP Proofs.UnpackP Proofs.AlwaysP Proofs.WordP.
Import ListNotations.
Open Scope Z_scope. Open Scope list_scope.

Lemma sound_always {F : Field} {A} w (m : CS F A) (Q1 Q2 : A -> Prop) :
  sound w m Q1 -> always m Q2 -> sound w m (fun a => Q1 a /\ Q2 a).
Proof. intros H1 H2 tr a E C. split; [exact (H1 _ _ E C)|exact (H2 _ _ E)]. Qed.

(** from_bits hints *)
Lemma bits_be_value_rev bits :
  bits_be_value (rev bits) =
  fold_right (fun b value => match value, bool_value b with
    | Some v, Some b => Some (2 * v + Z.b2z b) | _, _ => None end) (Some 0) bits.
Proof. unfold bits_be_value. rewrite <- fold_left_rev_right, rev_involutive. reflexivity. Qed.
Lemma bits_be_value_some bits bs : Forall2 (fun b x => bool_value b = Some x) bits bs ->
  bits_be_value (rev bits) = Some (bits_val bs).
Proof.
  rewrite bits_be_value_rev. induction 1 as [|b x bits bs Hb _ IH]; [reflexivity|].
  cbn [fold_right]. rewrite IH, Hb. cbn [bits_val]. f_equal. lia.
Qed.
Lemma bits_be_value_inv bits : forall z, bits_be_value (rev bits) = Some z ->
  exists bs, Forall2 (fun b x => bool_value b = Some x) bits bs /\ bits_val bs = z.
Proof.
  rewrite bits_be_value_rev. induction bits as [|b bits IH]; cbn [fold_right]; intros z H.
  - injection H as <-. exists []. split; [constructor|reflexivity].
  - destruct (fold_right _ _ bits) as [v|] eqn:E; [|discriminate H].
    destruct (bool_value b) as [x|] eqn:Eb; [|discriminate H].
    assert (Ez : 2 * v + Z.b2z x = z) by congruence. rewrite <- Ez.
    destruct (IH v eq_refl) as (bs & Hbs & Hv). exists (x :: bs). split; [constructor; assumption|].
    cbn [bits_val]. rewrite Hv. ring.
Qed.

Section UIntP.
  Context {F : Field} {p : Z} {v : F -> Z} (FL : FieldLaws F p v) (one : Var).
  Let OL : OpsLaws F p v := fl_ops _ _ _ FL.
  Add Field Ff : (ffield OL).
  Variable w : assignment F.
  Hypothesis w_one : w one = fone.

  Lemma bools_has_is bits bs : Forall2 (bool_has w) bits bs -> Forall2 (bool_is w) bits bs.
  Proof. apply F2_impl. intros a b H. apply H. Qed.
  Lemma word_has_is n u z : word_has w n u z -> word_is w n u z.
  Proof. intros (H1 & H2 & _). split; [exact H1|]. apply bools_has_is, H2. Qed.
  Lemma has_consistent b x : bool_has w b x -> consistent b x.
  Proof. destruct b; simpl; auto. intros [H _]. exact H. Qed.
  Lemma word_has_ok n u z : word_has w n u z -> word_ok w n u z.
  Proof.
    intros H. split; [apply word_has_is, H|]. destruct H as (H1 & H2 & H3). intros z' E.
    rewrite H3 in E. injection E as <-. split; [exact H1|]. revert H2. apply F2_impl. apply has_consistent.
  Qed.
  Lemma word_is_fun n u z z' : word_is w n u z -> word_is w n u z' -> z = z'.
  Proof.
    intros [H1 H2] [H3 H4]. rewrite <- (bits_of_word n z H1), <- (bits_of_word n z' H3). f_equal.
    revert H4. generalize (bits_of n z'). induction H2 as [|b x l l' Hb _ IH]; intros m Hm; inversion Hm; subst; auto.
    f_equal; [eapply (bool_is_fun FL w b); eassumption|]. apply IH. assumption.
  Qed.
  Lemma word_of_bits bits bs n : length bs = n -> Forall2 (bool_is w) bits bs ->
    forall val, word_is w n (mkU bits val) (bits_val bs).
  Proof.
    intros HL HB val. split.
    - rewrite <- HL. apply bits_val_in_word.
    - cbn [u_bits]. rewrite <- HL, bits_of_bits_val. exact HB.
  Qed.

  (** constants *)
  Lemma const_bits n z : Forall2 (bool_has w) (map Constant (le_bits n z)) (bits_of n z).
  Proof.
    unfold le_bits, bits_of. induction (seq 0 n) as [|i l IH]; simpl; constructor; auto.
    apply const_has_intro.
  Qed.
  Lemma u_constant_has n z : in_word n z -> word_has w n (u_constant n z) z.
  Proof. intro H. split; [exact H|]. split; [apply const_bits|reflexivity]. Qed.

  (** from_bits *)
  Lemma from_bits_agree n bits : length bits = n -> hints_agree n (mkU bits (bits_be_value (rev bits))).
  Proof.
    intros HL z E. cbn [u_value u_bits] in *. destruct (bits_be_value_inv _ _ E) as (bs & Hbs & <-).
    rewrite <- HL, (F2_length _ _ _ Hbs). split; [apply bits_val_in_word|].
    rewrite bits_of_bits_val. revert Hbs. apply F2_impl. intros [b|b|c] x H; simpl in *; auto. congruence.
  Qed.
  Lemma from_bits_ok n bits bs : length bits = n -> Forall2 (bool_is w) bits bs ->
    word_ok w n (mkU bits (bits_be_value (rev bits))) (bits_val bs).
  Proof.
    intros HL HB. split; [|apply from_bits_agree, HL]. apply word_of_bits; [|exact HB].
    rewrite <- (F2_length _ _ _ HB). exact HL.
  Qed.
  Lemma from_bits_has n bits bs : length bits = n -> Forall2 (bool_has w) bits bs ->
    word_has w n (mkU bits (bits_be_value (rev bits))) (bits_val bs).
  Proof.
    intros HL HB. destruct (from_bits_ok n bits bs HL (bools_has_is _ _ HB)) as [[H1 H2] _].
    split; [exact H1|]. cbn [u_bits u_value] in *. split.
    - rewrite <- HL, (F2_length _ _ _ HB), bits_of_bits_val. exact HB.
    - apply bits_be_value_some. revert HB. apply F2_impl. intros a b H. apply H.
  Qed.
  Lemma u_from_bits_sound n bits bs : Forall2 (bool_is w) bits bs ->
    sound w (u_from_bits n bits) (fun u => u_bits u = bits /\ word_ok w n u (bits_val bs)).
  Proof.
    intro HB. unfold u_from_bits. sstep. sstep. apply Nat.eqb_eq in H. split; [reflexivity|].
    apply from_bits_ok; assumption.
  Qed.
  Lemma u_from_bits_complete n bits bs : length bits = n -> Forall2 (bool_has w) bits bs ->
    complete w (u_from_bits n bits) (fun u => u_bits u = bits /\ word_has w n u (bits_val bs)).
  Proof.
    intros HL HB. unfold u_from_bits. cstep; [now apply Nat.eqb_eq|]. cstep. split; [reflexivity|].
    apply from_bits_has; assumption.
  Qed.
  Lemma u32_from_bits_be_sound bits bs : Forall2 (bool_is w) bits bs ->
    sound w (u32_from_bits_be bits) (fun u => word_ok w 32 u (bits_val (rev bs))).
  Proof.
    intro HB. unfold u32_from_bits_be. sstep. sstep. apply Nat.eqb_eq in H.
    rewrite <- (rev_involutive bits) at 2. apply from_bits_ok; [rewrite rev_length; exact H|].
    apply F2_rev, HB.
  Qed.
  Lemma u32_from_bits_be_complete bits bs : length bits = 32%nat -> Forall2 (bool_has w) bits bs ->
    complete w (u32_from_bits_be bits) (fun u => word_has w 32 u (bits_val (rev bs))).
  Proof.
    intros HL HB. unfold u32_from_bits_be. cstep; [now apply Nat.eqb_eq|]. cstep.
    rewrite <- (rev_involutive bits) at 2. apply from_bits_has; [rewrite rev_length; exact HL|].
    apply F2_rev, HB.
  Qed.

  (** alloc *)
  Lemma alloc_bits_sound vals : sound w (alloc_bits vals) (fun bits => exists bs, Forall2 (bool_is w) bits bs).
  Proof.
    unfold alloc_bits. eapply sound_weaken.
    - apply (sound_mapM w _ (fun _ b => exists x, bool_is w b x)). intros x _.
      eapply sound_bind; [apply sound_namespace, (bit_alloc_sound FL)|]. intros b [y Hy]. apply sound_ret.
      exists y. exact Hy.
    - intros bits H. apply Forall2_exists. clear - H. induction H; constructor; auto.
  Qed.
  Lemma alloc_bits_shape vals :
    always (@alloc_bits F vals) (fun bits => length bits = length vals /\ Forall (fun b => exists a, b = Is a) bits).
  Proof.
    unfold alloc_bits. induction vals as [|x vals IH]; simpl.
    - apply always_ret. split; [reflexivity|constructor].
    - eapply always_bind with (Q1 := fun b => exists a, b = Is a).
      + eapply always_bind with (Q1 := fun _ => True); [apply always_true; auto|]. intros b _. apply always_ret. eauto.
      + intros b Hb. eapply always_bind; [exact IH|]. intros bs [H1 H2]. apply always_ret.
        split; [simpl; congruence|constructor; assumption].
  Qed.
  Lemma alloc_bits_complete vals :
    complete w (alloc_bits (map Some vals)) (fun bits => Forall2 (bool_has w) bits vals).
  Proof.
    unfold alloc_bits. induction vals as [|x vals IH]; cbn [map mapM].
    - apply complete_ret. constructor.
    - eapply complete_bind with (Q1 := fun b => bool_has w b x).
      + eapply complete_bind; [apply complete_namespace, (bit_alloc_complete FL one w (ok_or_missing (Some x)) x eq_refl)|].
        intros b Hb. apply complete_ret. exact Hb.
      + intros b Hb. eapply complete_bind; [exact IH|]. intros bs Hbs. apply complete_ret. constructor; assumption.
  Qed.
  Lemma hint_bits_length n val : length (hint_bits n val) = n.
  Proof. destruct val; simpl; [rewrite map_length; apply bits_of_length|apply repeat_length]. Qed.
  Lemma allocated_agree n bits val : length bits = n -> Forall (fun b => exists a, b = Is a) bits ->
    (forall z, val = Some z -> in_word n z) -> hints_agree n (mkU bits val).
  Proof.
    intros HL HF HW z E. cbn [u_value u_bits] in *. split; [auto|].
    assert (HB : length bits = length (bits_of n z)) by (rewrite bits_of_length; exact HL).
    clear - HF HB. revert HB. generalize (bits_of n z). induction HF as [|b bits [a ->] _ IH]; intros [|x l] HB; try discriminate HB.
    - constructor.
    - constructor; [exact I|]. apply IH. now injection HB.
  Qed.
  Lemma u_alloc_sound n val : (forall z, val = Some z -> in_word n z) ->
    sound w (u_alloc n val) (fun u => exists z, word_ok w n u z).
  Proof.
    intro HV. unfold u_alloc. eapply sound_bind.
    - apply sound_always; [apply alloc_bits_sound|apply alloc_bits_shape].
    - intros bits [[bs HB] [HL HF]]. apply sound_ret. rewrite hint_bits_length in HL.
      exists (bits_val bs). split.
      + apply word_of_bits; [|exact HB]. rewrite <- (F2_length _ _ _ HB). exact HL.
      + apply allocated_agree; assumption.
  Qed.
  Lemma u_alloc_complete n z : in_word n z -> complete w (u_alloc n (Some z)) (fun u => word_has w n u z).
  Proof.
    intro Hz. unfold u_alloc. eapply complete_bind; [apply alloc_bits_complete|].
    intros bits HB. apply complete_ret. split; [exact Hz|]. split; [exact HB|reflexivity].
  Qed.

  (** rotr, shr *)
  Lemma mod32 k : (k mod 32 < 32)%nat /\ 0 <= Z.of_nat (k mod 32) < 32.
  Proof.
    assert (H : (k mod 32 < 32)%nat) by (apply Nat.mod_upper_bound; discriminate).
    split; [exact H|]. revert H. generalize (k mod 32)%nat. intros; lia.
  Qed.
  Lemma F2_repeat {A B} (R : A -> B -> Prop) a b k : R a b -> Forall2 R (repeat a k) (repeat b k).
  Proof. intro H. induction k; simpl; constructor; auto. Qed.
  Lemma rotr_ok u z k : word_ok w 32 u z -> word_ok w 32 (u32_rotr u k) (ROTR (Z.of_nat (k mod 32)) z).
  Proof.
    destruct (mod32 k) as [Hk Hk'].
    intros [[H1 H2] H3]. unfold u32_rotr. split; [split|].
    - apply ROTR_word; assumption.
    - cbn [u_bits]. rewrite <- bits_of_ROTR by assumption.
      apply F2_firstn, Forall2_app; [apply F2_skipn|]; exact H2.
    - intros z' E. cbn [u_bits u_value] in *. destruct (u_value u) as [z0|] eqn:Eu; [|discriminate E].
      injection E as <-. destruct (H3 z0 Eu) as [H4 H5]. rewrite rotate_right32_ROTR by exact Hk'.
      split; [apply ROTR_word; assumption|]. rewrite <- bits_of_ROTR by assumption.
      apply F2_firstn, Forall2_app; [apply F2_skipn|]; exact H5.
  Qed.
  Lemma rotr_has u z k : word_has w 32 u z -> word_has w 32 (u32_rotr u k) (ROTR (Z.of_nat (k mod 32)) z).
  Proof.
    destruct (mod32 k) as [Hk Hk'].
    intros (H1 & H2 & H3). unfold u32_rotr. split; [|split].
    - apply ROTR_word; assumption.
    - cbn [u_bits]. rewrite <- bits_of_ROTR by assumption.
      apply F2_firstn, Forall2_app; [apply F2_skipn|]; exact H2.
    - cbn [u_value]. rewrite H3. cbn [option_map]. rewrite rotate_right32_ROTR by exact Hk'. reflexivity.
  Qed.
  Lemma shr_ok u z k : word_ok w 32 u z -> word_ok w 32 (u32_shr u k) (SHR (Z.of_nat (k mod 32)) z).
  Proof.
    destruct (mod32 k) as [Hk Hk'].
    intros [[H1 H2] H3]. unfold u32_shr. split; [split|].
    - apply SHR_word; assumption.
    - cbn [u_bits]. rewrite <- bits_of_SHR by assumption.
      apply F2_firstn, Forall2_app; [apply F2_skipn, H2|]. apply F2_repeat. reflexivity.
    - intros z' E. cbn [u_bits u_value] in *. destruct (u_value u) as [z0|] eqn:Eu; [|discriminate E].
      assert (Ez : z' = SHR (Z.of_nat (k mod 32)) z0).
      { unfold SHR. rewrite <- Z.shiftr_div_pow2 by apply Hk'. cbn [option_map] in E. congruence. }
      clear E. subst z'. destruct (H3 z0 Eu) as [H4 H5].
      split; [apply (SHR_word (k mod 32)); assumption|].
      rewrite <- bits_of_SHR by assumption.
      apply F2_firstn, Forall2_app; [apply F2_skipn, H5|]. apply F2_repeat. reflexivity.
  Qed.
  Lemma shr_has u z k : word_has w 32 u z -> word_has w 32 (u32_shr u k) (SHR (Z.of_nat (k mod 32)) z).
  Proof.
    destruct (mod32 k) as [Hk Hk'].
    intros (H1 & H2 & H3). unfold u32_shr. split; [|split].
    - apply SHR_word; assumption.
    - cbn [u_bits]. rewrite <- bits_of_SHR by assumption.
      apply F2_firstn, Forall2_app; [apply F2_skipn, H2|]. apply F2_repeat. apply const_has_intro.
    - cbn [u_value]. rewrite H3. cbn [option_map]. rewrite Z.shiftr_div_pow2 by apply Hk'. reflexivity.
  Qed.

  (** the constant outputs of the boolean gadgets *)
  Lemma bool_not_consistent b x : consistent b x -> consistent (bool_not b) (negb x).
  Proof. destruct b; simpl; congruence. Qed.
  Local Ltac nonconst := eapply always_bind with (Q1 := fun _ => True); [apply always_true; auto|intros; apply always_ret; exact I].
  Lemma bool_xor_always a b x y : consistent a x -> consistent b y ->
    always (@bool_xor F a b) (fun o => consistent o (xorb x y)).
  Proof.
    intros Ha Hb. unfold bool_xor.
    destruct a as [a|a|[|]], b as [b|b|[|]]; simpl in Ha, Hb; subst;
      first [ nonconst
            | apply always_ret; simpl; repeat match goal with x : bool |- _ => destruct x end; reflexivity || exact I
            | eapply always_bind with (Q1 := fun o => exists r, o = Is r);
              [eapply always_bind with (Q1 := fun _ => True); [apply always_true; auto|intros; apply always_ret; eauto]|];
              intros ? [? ->]; apply always_ret; exact I ].
  Qed.
  Lemma bool_and_always a b x y : consistent a x -> consistent b y ->
    always (@bool_and F one a b) (fun o => consistent o (x && y)).
  Proof.
    intros Ha Hb. unfold bool_and.
    destruct a as [a|a|[|]], b as [b|b|[|]]; simpl in Ha, Hb; subst;
      first [ nonconst
            | apply always_ret; simpl; repeat match goal with x : bool |- _ => destruct x end; reflexivity || exact I ].
  Qed.
  Lemma ch_gate_always a b c val x : always (@sha256_ch_gate F one a b c val) (fun o => consistent o x).
  Proof.
    unfold sha256_ch_gate. repeat (eapply always_bind with (Q1 := fun _ => True); [apply always_true; auto|intros];
      repeat match goal with x : prod _ _ |- _ => destruct x end). apply always_ret. exact I.
  Qed.
  Lemma maj_gate_always a b c val x : always (@sha256_maj_gate F one a b c val) (fun o => consistent o x).
  Proof.
    unfold sha256_maj_gate. repeat (eapply always_bind with (Q1 := fun _ => True); [apply always_true; auto|intros];
      repeat match goal with x : prod _ _ |- _ => destruct x end). apply always_ret. exact I.
  Qed.
  Local Ltac hyp := lazymatch goal with |- consistent ?b _ =>
    match goal with H : consistent b _ |- _ => exact H end end.
  Local Ltac fin := simpl in *; subst; repeat match goal with x : bool |- _ => destruct x end; simpl in *; reflexivity || congruence || exact I || assumption.
  Local Ltac ab G :=
    cbv beta iota zeta;
    first [ apply G
          | apply always_ret; fin
          | eapply always_weaken; [eapply bool_and_always; hyp|]; cbv beta; intros o Ho; fin
          | eapply always_bind; [eapply bool_and_always; hyp|]; cbv beta; intros o Ho;
            apply always_ret; apply bool_not_consistent in Ho; fin ].
  Lemma bool_ch_always a b c x y z : consistent a x -> consistent b y -> consistent c z ->
    always (@bool_sha256_ch F one a b c) (fun o => consistent o (Ch x y z)).
  Proof.
    intros Ha Hb Hc. unfold bool_sha256_ch.
    pose proof (bool_not_consistent _ _ Ha) as Ha'. pose proof (bool_not_consistent _ _ Hb) as Hb'.
    pose proof (bool_not_consistent _ _ Hc) as Hc'.
    destruct a as [a|a|[|]], b as [b|b|[|]], c as [c|c|[|]]; ab ch_gate_always.
  Qed.
  Lemma bool_maj_always a b c x y z : consistent a x -> consistent b y -> consistent c z ->
    always (@bool_sha256_maj F one a b c) (fun o => consistent o (Maj x y z)).
  Proof.
    intros Ha Hb Hc. unfold bool_sha256_maj.
    pose proof (bool_not_consistent _ _ Ha) as Ha'. pose proof (bool_not_consistent _ _ Hb) as Hb'.
    pose proof (bool_not_consistent _ _ Hc) as Hc'.
    destruct a as [a|a|[|]], b as [b|b|[|]], c as [c|c|[|]]; ab maj_gate_always.
  Qed.

  (** the result of a bitwise word operation *)
  Lemma sound_word (mbits : CS F (list Boolean)) val n z :
    in_word n z ->
    sound w mbits (fun bits => Forall2 (bool_is w) bits (bits_of n z)) ->
    (forall z', val = Some z' -> in_word n z' /\ always mbits (fun bits => Forall2 consistent bits (bits_of n z'))) ->
    sound w (bind mbits (fun bits => ret (mkU bits val))) (fun u => word_ok w n u z).
  Proof.
    intros Hz HS HA.
    eapply sound_bind with (Q1 := fun bits => Forall2 (bool_is w) bits (bits_of n z) /\
      (forall z', val = Some z' -> in_word n z' /\ Forall2 consistent bits (bits_of n z'))).
    - intros tr bits E C. split; [exact (HS _ _ E C)|]. intros z' Ev. destruct (HA z' Ev) as [H1 H2].
      split; [exact H1|]. exact (H2 _ _ E).
    - intros bits [H1 H2]. apply sound_ret. split; [split; assumption|]. exact H2.
  Qed.

  Lemma xor_sound a b x y : word_ok w 32 a x -> word_ok w 32 b y ->
    sound w (u32_xor a b) (fun o => word_ok w 32 o (Z.lxor x y)).
  Proof.
    intros [[Ha1 Ha2] Ha3] [[Hb1 Hb2] Hb3]. unfold u32_xor. cbv zeta. apply sound_word.
    - apply lxor_word; assumption.
    - rewrite <- bits_of_lxor.
      eapply sound_mapM_f; [|apply F2_combine; [exact Ha2|exact Hb2]].
      intros [a0 b0] [x0 y0] [H1 H2]. apply sound_namespace. apply (bool_xor_sound FL w); assumption.
    - intros z E. destruct (u_value a) as [za|] eqn:Ea; [|discriminate E].
      destruct (u_value b) as [zb|] eqn:Eb; [|discriminate E]. injection E as <-.
      destruct (Ha3 _ Ea) as [A1 A2], (Hb3 _ Eb) as [B1 B2]. split; [apply lxor_word; assumption|].
      rewrite <- bits_of_lxor. eapply always_mapM_f; [|apply F2_combine; [exact A2|exact B2]].
      intros [a0 b0] [x0 y0] [H1 H2]. apply always_namespace, bool_xor_always; assumption.
  Qed.
  Lemma xor_complete a b x y : word_has w 32 a x -> word_has w 32 b y ->
    complete w (u32_xor a b) (fun o => word_has w 32 o (Z.lxor x y)).
  Proof.
    intros (Ha1 & Ha2 & Ha3) (Hb1 & Hb2 & Hb3). unfold u32_xor. cbv zeta. rewrite Ha3, Hb3. cbn [omap2].
    eapply complete_bind.
    - eapply complete_mapM_f with (Q := bool_has w) (f := fun '(a, b) => xorb a b);
        [|apply F2_combine; [exact Ha2|exact Hb2]].
      intros [a0 b0] [x0 y0] [H1 H2]. apply complete_namespace.
      eapply bool_xor_complete; eassumption.
    - intros bits HB. apply complete_ret. split; [apply lxor_word; assumption|]. split; [|reflexivity].
      cbn [u_bits]. rewrite <- bits_of_lxor.
      exact HB.
  Qed.

  Section Triop.
    Variables (f : Z -> Z -> Z -> Z) (g : bool -> bool -> bool -> bool)
      (m : Boolean -> Boolean -> Boolean -> CS F Boolean).
    Hypothesis f_word : forall x y z, in_word 32 x -> in_word 32 y -> in_word 32 z -> in_word 32 (f x y z).
    Hypothesis f_bits : forall x y z, in_word 32 x -> map (fun '(a, b, c) => g a b c)
      (combine (combine (bits_of 32 x) (bits_of 32 y)) (bits_of 32 z)) = bits_of 32 (f x y z).
    Hypothesis m_sound : forall a b c x y z, bool_is w a x -> bool_is w b y -> bool_is w c z ->
      sound w (m a b c) (fun o => bool_is w o (g x y z)).
    Hypothesis m_complete : forall a b c x y z, bool_has w a x -> bool_has w b y -> bool_has w c z ->
      complete w (m a b c) (fun o => bool_has w o (g x y z)).
    Hypothesis m_always : forall a b c x y z, consistent a x -> consistent b y -> consistent c z ->
      always (m a b c) (fun o => consistent o (g x y z)).
    Lemma triop_sound a b c x y z : word_ok w 32 a x -> word_ok w 32 b y -> word_ok w 32 c z ->
      sound w (u32_triop a b c f m) (fun o => word_ok w 32 o (f x y z)).
    Proof.
      intros [[Ha1 Ha2] Ha3] [[Hb1 Hb2] Hb3] [[Hc1 Hc2] Hc3]. unfold u32_triop. cbv zeta. apply sound_word.
      - apply f_word; assumption.
      - rewrite <- f_bits by assumption.
        eapply sound_mapM_f; [|apply F2_combine; [apply F2_combine; [exact Ha2|exact Hb2]|exact Hc2]].
        intros [[a0 b0] c0] [[x0 y0] z0] [[H1 H2] H3]. apply m_sound; assumption.
      - intros z' E. destruct (u_value a) as [za|] eqn:Ea; [|discriminate E].
        destruct (u_value b) as [zb|] eqn:Eb; [|discriminate E].
        destruct (u_value c) as [zc|] eqn:Ec; [|discriminate E]. injection E as <-.
        destruct (Ha3 _ Ea) as [A1 A2], (Hb3 _ Eb) as [B1 B2], (Hc3 _ Ec) as [C1 C2]. split; [apply f_word; assumption|].
        rewrite <- f_bits by assumption.
        eapply always_mapM_f; [|apply F2_combine; [apply F2_combine; [exact A2|exact B2]|exact C2]].
        intros [[a0 b0] c0] [[x0 y0] z0] [[H1 H2] H3]. apply m_always; assumption.
    Qed.
    Lemma triop_complete a b c x y z : word_has w 32 a x -> word_has w 32 b y -> word_has w 32 c z ->
      complete w (u32_triop a b c f m) (fun o => word_has w 32 o (f x y z)).
    Proof.
      intros (Ha1 & Ha2 & Ha3) (Hb1 & Hb2 & Hb3) (Hc1 & Hc2 & Hc3). unfold u32_triop. cbv zeta.
      rewrite Ha3, Hb3, Hc3. cbn [omap3z].
      eapply complete_bind.
      - eapply complete_mapM_f with (Q := bool_has w) (f := fun '(a, b, c) => g a b c);
          [|apply F2_combine; [apply F2_combine; [exact Ha2|exact Hb2]|exact Hc2]].
        intros [[a0 b0] c0] [[x0 y0] z0] [[H1 H2] H3]. apply m_complete; assumption.
      - intros bits HB. apply complete_ret. split; [apply f_word; assumption|]. split; [|reflexivity].
        cbn [u_bits]. rewrite <- f_bits by assumption. exact HB.
    Qed.
  End Triop.

  Lemma maj_sound a b c x y z : word_ok w 32 a x -> word_ok w 32 b y -> word_ok w 32 c z ->
    sound w (u32_sha256_maj one a b c) (fun o => word_ok w 32 o (MAJ x y z)).
  Proof.
    apply (triop_sound MAJ Maj); intros.
    - apply MAJ_word; assumption.
    - apply bits_of_MAJ.
    - apply sound_namespace. eapply bool_sha256_maj_sound; eassumption.
    - apply always_namespace, bool_maj_always; assumption.
  Qed.
  Lemma maj_complete a b c x y z : word_has w 32 a x -> word_has w 32 b y -> word_has w 32 c z ->
    complete w (u32_sha256_maj one a b c) (fun o => word_has w 32 o (MAJ x y z)).
  Proof.
    apply (triop_complete MAJ Maj); intros.
    - apply MAJ_word; assumption.
    - apply bits_of_MAJ.
    - apply complete_namespace. eapply bool_sha256_maj_complete; eassumption.
  Qed.
  Lemma ch_sound a b c x y z : word_ok w 32 a x -> word_ok w 32 b y -> word_ok w 32 c z ->
    sound w (u32_sha256_ch one a b c) (fun o => word_ok w 32 o (CH x y z)).
  Proof.
    apply (triop_sound CH Ch); intros.
    - apply CH_word; assumption.
    - apply bits_of_CH; assumption.
    - apply sound_namespace. eapply bool_sha256_ch_sound; eassumption.
    - apply always_namespace, bool_ch_always; assumption.
  Qed.
  Lemma ch_complete a b c x y z : word_has w 32 a x -> word_has w 32 b y -> word_has w 32 c z ->
    complete w (u32_sha256_ch one a b c) (fun o => word_has w 32 o (CH x y z)).
  Proof.
    apply (triop_complete CH Ch); intros.
    - apply CH_word; assumption.
    - apply bits_of_CH; assumption.
    - apply complete_namespace. eapply bool_sha256_ch_complete; eassumption.
  Qed.
End UIntP.
