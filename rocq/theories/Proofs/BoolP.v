(** Soundness and completeness of the boolean gadgets. *)
From Coq Require Import String List Bool ZArith Lia Ring Field.
From Verif Require Import Model.FieldTrait Model.Circuits Model.Num Model.Boolean Spec.FieldLaws
  Spec.CircuitSpec Spec.NumSpec Spec.BoolSpec Proofs.FieldGen Proofs.CircuitP Proofs.LcP Proofs.NumP.
Import ListNotations.

Section BoolP.
  Context {F : Field} {p : Z} {v : F -> Z} (FL : FieldLaws F p v) (one : Var).
  Let OL : OpsLaws F p v := fl_ops _ _ _ FL.
  Add Field Ff : (ffield OL).
  Variable w : assignment F.
  Hypothesis w_one : w one = fone.

  Lemma fb_of_bit x : f_from_bool x = of_bit x :> F.
  Proof.
    apply (ol_inj _ _ _ OL). rewrite (fl_from_bool _ _ _ FL).
    destruct x; simpl; rewrite ?(ol_one _ _ _ OL), ?(ol_zero _ _ _ OL); reflexivity.
  Qed.
  Lemma of_bit_inj x y : of_bit x = of_bit y :> F -> x = y.
  Proof.
    destruct x, y; simpl; auto; intro H; exfalso; apply (fone_neq_zero OL); auto.
  Qed.
  Lemma bit_is_fun b x y : bit_is w b x -> bit_is w b y -> x = y.
  Proof. unfold bit_is. intros H1 H2. apply of_bit_inj. congruence. Qed.
  Lemma bool_is_fun b x y : bool_is w b x -> bool_is w b y -> x = y.
  Proof.
    destruct b; simpl; intros H1 H2.
    - eapply bit_is_fun; eassumption.
    - pose proof (bit_is_fun _ _ _ H1 H2). destruct x, y; simpl in *; congruence.
    - congruence.
  Qed.

  Lemma boolean_wire (a : F) : fmul a a = a -> exists x, a = of_bit x.
  Proof.
    intro H. assert (E : fmul a (fsub a fone) = fzero) by (transitivity (fsub (fmul a a) a); [ring|]; rewrite H; ring).
    apply (fmul_zero OL) in E. destruct E as [E|E].
    - exists false. exact E.
    - exists true. apply (proj1 (fsub_zero OL _ _)) in E. exact E.
  Qed.

  Local Ltac bits := repeat match goal with
    | x : bool |- _ => destruct x end; simpl.
  Local Ltac fin := unfold bit_is in *; cbn [bit_var bit_value] in *; lcv OL; eqz OL;
    rewrite ?w_one in *.

  Local Ltac wsub := repeat match goal with
    | H : w ?x = _ |- context [w ?x] => rewrite H end.
  Local Ltac cfin := wsub; first [ring | repeat match goal with x : bool |- _ => destruct x end; simpl; ring
    | split; simpl; auto].

  Lemma bit_one_is : bit_is w (bit_one one) true.
  Proof. exact w_one. Qed.
  Lemma bit_one_has : bit_has w (bit_one one) true.
  Proof. split; [exact w_one|reflexivity]. Qed.

  Lemma bit_alloc_sound val : sound w (bit_alloc val) (fun b => exists x, bit_is w b x).
  Proof.
    unfold bit_alloc. repeat sstep. fin. apply boolean_wire. congruence.
  Qed.
  Lemma bit_alloc_complete val x : val = Ok x -> complete w (bit_alloc val) (fun b => bit_has w b x).
  Proof.
    intros ->. unfold bit_alloc. simpl. rewrite fb_of_bit.
    repeat (cstep; try reflexivity; fin; try (wires w; ring)).
    - destruct x; simpl; ring.
    - split; simpl; auto.
  Qed.
  Lemma bit_alloc_input_unchecked_complete val x : val = Ok x ->
    complete w (bit_alloc_input_unchecked val) (fun b => bit_has w b x).
  Proof.
    intros ->. unfold bit_alloc_input_unchecked. simpl. rewrite fb_of_bit.
    cstep; [reflexivity|]. cstep. split; simpl; auto.
  Qed.
  Lemma bit_check_sound b : sound w (bit_check b) (fun _ => exists x, bit_is w b x).
  Proof.
    unfold bit_check. repeat sstep. fin. apply boolean_wire. congruence.
  Qed.
  Lemma bit_check_complete b x : bit_has w b x -> complete w (bit_check b) (fun _ => True).
  Proof.
    intros [H1 H2]. unfold bit_check. rewrite H2. simpl. rewrite fb_of_bit. unfold bit_is in H1.
    repeat (cstep; try reflexivity; fin; try (rewrite ?H1; wires w; ring)); auto.
    destruct x; simpl; ring.
  Qed.

  Lemma bit_xor_sound a b x y : bit_is w a x -> bit_is w b y ->
    sound w (bit_xor a b) (fun o => bit_is w o (xorb x y)).
  Proof.
    intros Ha Hb. unfold bit_xor. repeat sstep. fin.
    match goal with |- w ?r = _ =>
      assert (E : fsub (fadd (of_bit x) (of_bit y)) (w r) = fmul (fadd (of_bit x) (of_bit x)) (of_bit y))
        by congruence;
      transitivity (fsub (fadd (of_bit x) (of_bit y)) (fsub (fadd (of_bit x) (of_bit y)) (w r))); [ring|]
    end.
    rewrite E. destruct x, y; simpl; ring.
  Qed.
  Local Ltac simp2 Ha Hb := let H1 := fresh "H" in let H2 := fresh "H" in
    destruct Ha as [Ha H1]; destruct Hb as [Hb H2]; rewrite H1, H2; simpl;
    unfold bit_is in Ha, Hb.
  Lemma bit_xor_complete a b x y : bit_has w a x -> bit_has w b y ->
    complete w (bit_xor a b) (fun o => bit_has w o (xorb x y)).
  Proof.
    intros Ha Hb. unfold bit_xor. simp2 Ha Hb.
    cstep; [instantiate (1 := of_bit (xorb x y)); destruct x, y; reflexivity|].
    simpl. rewrite !fb_of_bit.
    repeat (cstep; try reflexivity; fin); cfin.
  Qed.

  Lemma bit_and_sound a b x y : bit_is w a x -> bit_is w b y ->
    sound w (bit_and a b) (fun o => bit_is w o (x && y)).
  Proof.
    intros Ha Hb. unfold bit_and. repeat sstep. fin.
    match goal with H : fmul _ _ = w ?r |- w ?r = _ => rewrite <- H end.
    replace (fmul _ _) with (fmul (of_bit x) (of_bit y) : F) by congruence.
    destruct x, y; simpl; ring.
  Qed.
  Lemma bit_and_complete a b x y : bit_has w a x -> bit_has w b y ->
    complete w (bit_and a b) (fun o => bit_has w o (x && y)).
  Proof.
    intros Ha Hb. unfold bit_and. simp2 Ha Hb. rewrite !fb_of_bit.
    cstep; [instantiate (1 := of_bit (x && y)); instantiate (1 := of_bit y);
            instantiate (1 := of_bit x); destruct x, y; reflexivity
           |destruct x, y; simpl; ring|].
    repeat (cstep; fin; try (rewrite ?Ha, ?Hb; wires w; ring)). split; simpl; auto.
  Qed.

  Lemma bit_and_not_sound a b x y : bit_is w a x -> bit_is w b y ->
    sound w (bit_and_not one a b) (fun o => bit_is w o (x && negb y)).
  Proof.
    intros Ha Hb. unfold bit_and_not. repeat sstep. fin.
    match goal with H : fmul ?l ?n = w ?r, E : fadd ?n _ = fone |- w ?r = _ =>
      rewrite <- H; assert (E1 : n = fsub fone (of_bit y)) by (rewrite <- E, Hb; ring); rewrite E1 end.
    replace (w _) with (of_bit x : F) by congruence.
    destruct x, y; simpl; ring.
  Qed.
  Lemma bit_and_not_complete a b x y : bit_has w a x -> bit_has w b y ->
    complete w (bit_and_not one a b) (fun o => bit_has w o (x && negb y)).
  Proof.
    intros Ha Hb. unfold bit_and_not. simp2 Ha Hb. rewrite !fb_of_bit.
    repeat (cstep; try reflexivity; fin); cfin.
  Qed.

  Lemma bit_nor_sound a b x y : bit_is w a x -> bit_is w b y ->
    sound w (bit_nor one a b) (fun o => bit_is w o (negb x && negb y)).
  Proof.
    intros Ha Hb. unfold bit_nor. repeat sstep. fin.
    match goal with H : fmul ?l ?n = w ?r, E : fadd ?l _ = fone, E' : fadd ?n _ = fone |- w ?r = _ =>
      rewrite <- H; assert (E1 : n = fsub fone (of_bit y)) by (rewrite <- E', Hb; ring); rewrite E1;
      assert (E2 : l = fsub fone (of_bit x)) by (rewrite <- E, Ha; ring); rewrite E2 end.
    destruct x, y; simpl; ring.
  Qed.
  Lemma bit_nor_complete a b x y : bit_has w a x -> bit_has w b y ->
    complete w (bit_nor one a b) (fun o => bit_has w o (negb x && negb y)).
  Proof.
    intros Ha Hb. unfold bit_nor. simp2 Ha Hb. rewrite !fb_of_bit.
    repeat (cstep; try reflexivity; fin); cfin.
  Qed.

  (** [Boolean] *)
  Lemma bool_not_is b x : bool_is w b x -> bool_is w (bool_not b) (negb x).
  Proof. destruct b; simpl; rewrite ?negb_involutive; auto. intros ->. reflexivity. Qed.
  Lemma bool_not_has b x : bool_has w b x -> bool_has w (bool_not b) (negb x).
  Proof.
    intros [H1 H2]. split; [apply bool_not_is, H1|].
    destruct b as [b|b|c]; simpl in *; try (injection H2 as ->; reflexivity).
    - rewrite H2. reflexivity.
    - destruct (bit_value b); simpl in *; [|discriminate H2]. injection H2 as <-.
      rewrite negb_involutive. reflexivity.
  Qed.
  Lemma bool_is_not b x : bool_is w (bool_not b) x -> bool_is w b (negb x).
  Proof. destruct b; simpl; rewrite ?negb_involutive; auto. intros <-. rewrite negb_involutive. reflexivity. Qed.
  Lemma bool_lc_val b x c : bool_is w b x ->
    lc_val w (bool_lc b one c) = fmul (coeff_val c) (of_bit x).
  Proof.
    destruct b as [b|b|d]; cbn [bool_is bool_lc]; intro H.
    - rewrite (lc_val_add_cv OL). unfold bit_is in H. rewrite H, lc_val_zero. ring.
    - rewrite (lc_val_sub_cv OL), (lc_val_add_cv OL). unfold bit_is in H.
      rewrite H, lc_val_zero, w_one. destruct x; simpl; ring.
    - subst d. destruct x; cbn [of_bit]; rewrite ?(lc_val_add_cv OL), lc_val_zero, ?w_one; ring.
  Qed.
  Lemma bool_lc1_val b x : bool_is w b x -> lc_val w (bool_lc b one COne) = of_bit x.
  Proof. intro H. rewrite (bool_lc_val _ x) by exact H. simpl. ring. Qed.

  Lemma bool_enforce_equal_sound a b x y : bool_is w a x -> bool_is w b y ->
    sound w (bool_enforce_equal one a b) (fun _ => x = y).
  Proof.
    intros Ha Hb. 
    assert (G1 : forall a b x y, bool_is w a x -> bool_is w b y ->
      sound w (bind (enforce_zero (lc_sub_lc (bool_lc a one COne) (bool_lc b one COne))) (fun _ => ret tt))
        (fun _ => x = y)).
    { clear a b x y Ha Hb. intros. repeat sstep. lcv OL. eqz OL.
      rewrite (bool_lc1_val _ x), (bool_lc1_val _ y) in * by assumption. apply of_bit_inj. assumption. }
    assert (G2 : forall a x, bool_is w a x ->
      sound w (bind (enforce_zero (lc_sub_v (bool_lc a one COne) one)) (fun _ => ret tt))
        (fun _ => x = true)).
    { clear a b x y Ha Hb. intros. repeat sstep. lcv OL. eqz OL.
      rewrite (bool_lc1_val _ x) in * by assumption. rewrite w_one in *. apply of_bit_inj. assumption. }
    assert (G3 : forall a x, bool_is w a x ->
      sound w (bind (enforce_zero (bool_lc a one COne)) (fun _ => ret tt)) (fun _ => x = false)).
    { clear a b x y Ha Hb. intros. repeat sstep.
      rewrite (bool_lc1_val _ x) in * by assumption. apply of_bit_inj. assumption. }
    unfold bool_enforce_equal.
    destruct a as [a|a|[|]], b as [b|b|[|]]; cbn [Bool.eqb];
      first [ apply G1; assumption | apply sound_fail
            | apply sound_ret; cbn [bool_is] in *; congruence
            | eapply sound_weaken; [apply (G2 _ _ Ha)|cbn [bool_is] in *; congruence]
            | eapply sound_weaken; [apply (G2 _ _ Hb)|cbn [bool_is] in *; congruence]
            | eapply sound_weaken; [apply (G3 _ _ Ha)|cbn [bool_is] in *; congruence]
            | eapply sound_weaken; [apply (G3 _ _ Hb)|cbn [bool_is] in *; congruence] ].
  Qed.
  Lemma bool_enforce_equal_complete a b x : bool_has w a x -> bool_has w b x ->
    complete w (bool_enforce_equal one a b) (fun _ => True).
  Proof.
    intros [Ha _] [Hb _].
    assert (G1 : forall a b x, bool_is w a x -> bool_is w b x ->
      complete w (bind (enforce_zero (lc_sub_lc (bool_lc a one COne) (bool_lc b one COne))) (fun _ => ret tt))
        (fun _ => True)).
    { clear a b x Ha Hb. intros. repeat cstep; auto. lcv OL.
      rewrite !(bool_lc1_val _ x) by assumption. ring. }
    assert (G2 : forall a x, bool_is w a x -> x = true ->
      complete w (bind (enforce_zero (lc_sub_v (bool_lc a one COne) one)) (fun _ => ret tt))
        (fun _ => True)).
    { clear a b x Ha Hb. intros. repeat cstep; auto. lcv OL.
      rewrite !(bool_lc1_val _ x) by assumption. subst. rewrite w_one. simpl. ring. }
    assert (G3 : forall a x, bool_is w a x -> x = false ->
      complete w (bind (enforce_zero (bool_lc a one COne)) (fun _ => ret tt)) (fun _ => True)).
    { clear a b x Ha Hb. intros. repeat cstep; auto.
      rewrite !(bool_lc1_val _ x) by assumption. subst. reflexivity. }
    unfold bool_enforce_equal.
    destruct a as [a|a|[|]], b as [b|b|[|]]; cbn [Bool.eqb];
      first [ apply (G1 _ _ x); assumption
            | apply complete_ret; exact I
            | apply (G2 _ _ Ha); cbn [bool_is] in *; congruence
            | apply (G2 _ _ Hb); cbn [bool_is] in *; congruence
            | apply (G3 _ _ Ha); cbn [bool_is] in *; congruence
            | apply (G3 _ _ Hb); cbn [bool_is] in *; congruence
            | exfalso; cbn [bool_is] in *; congruence ].
  Qed.

  Lemma bool_xor_sound a b x y : bool_is w a x -> bool_is w b y ->
    sound w (bool_xor a b) (fun o => bool_is w o (xorb x y)).
  Proof.
    intros Ha Hb. unfold bool_xor.
    destruct a as [a|a|[|]], b as [b|b|[|]]; cbn [bool_is] in Ha, Hb;
      try (apply sound_ret; subst;
           first [ rewrite ?xorb_false_l, ?xorb_false_r; first [exact Ha | exact Hb | reflexivity]
                 | rewrite ?xorb_true_l, ?xorb_true_r; apply bool_not_is; first [exact Ha | exact Hb | reflexivity] ]).
    - eapply sound_bind; [apply (bit_xor_sound _ _ _ _ Ha Hb)|]. intros o Ho. sstep. exact Ho.
    - sstep. eapply sound_bind; [apply (bit_xor_sound _ _ _ _ Ha Hb)|]. intros o Ho. repeat sstep.
      simpl. destruct x, y; exact Ho.
    - sstep. eapply sound_bind; [apply (bit_xor_sound _ _ _ _ Hb Ha)|]. intros o Ho. repeat sstep.
      simpl. destruct x, y; exact Ho.
    - eapply sound_bind; [apply (bit_xor_sound _ _ _ _ Ha Hb)|]. intros o Ho. sstep.
      simpl. destruct x, y; exact Ho.
  Qed.
  Lemma is_has b x : bool_has w (Is b) x -> bit_has w b x.
  Proof. exact (fun H => H). Qed.
  Lemma not_has b x : bool_has w (Not b) x -> bit_has w b (negb x).
  Proof.
    intros [H1 H2]. split; [exact H1|]. simpl in H2.
    destruct (bit_value b); simpl in *; [|discriminate H2]. injection H2 as <-.
    rewrite negb_involutive. reflexivity.
  Qed.
  Lemma const_has c x : bool_has w (Constant c) x -> c = x.
  Proof. intros [H _]. exact H. Qed.
  Lemma has_not b x : bit_has w b (negb x) -> bool_has w (Not b) x.
  Proof.
    intros [H1 H2]. split; [exact H1|]. simpl. rewrite H2. simpl. rewrite negb_involutive. reflexivity.
  Qed.
  Local Ltac open_has := repeat match goal with
    | H : bool_has _ (Is _) _ |- _ => apply is_has in H
    | H : bool_has _ (Not _) _ |- _ => apply not_has in H
    | H : bool_has _ (Constant _) _ |- _ => apply const_has in H; subst
    end.
  Lemma const_has_intro c : bool_has w (Constant c) c.
  Proof. split; reflexivity. Qed.
  Local Ltac close_has :=
    first [ exact (const_has_intro _) | assumption | apply has_not; assumption
          | apply bool_not_has; close_has | idtac ].
  Lemma bool_xor_complete a b x y : bool_has w a x -> bool_has w b y ->
    complete w (bool_xor a b) (fun o => bool_has w o (xorb x y)).
  Proof.
    intros Ha Hb. unfold bool_xor.
    destruct a as [a|a|[|]], b as [b|b|[|]];
      try (apply complete_ret;
           try (pose proof (const_has _ _ Ha); subst); try (pose proof (const_has _ _ Hb); subst);
           first [ rewrite ?xorb_false_l, ?xorb_false_r; first [exact Ha | exact Hb]
                 | rewrite ?xorb_true_l, ?xorb_true_r; apply bool_not_has; first [exact Ha | exact Hb] ]);
      open_has.
    - eapply complete_bind; [apply (bit_xor_complete _ _ _ _ Ha Hb)|]. intros o Ho. cstep. exact Ho.
    - cstep. eapply complete_bind; [apply (bit_xor_complete _ _ _ _ Ha Hb)|]. intros o Ho. repeat cstep.
      apply has_not. destruct x, y; exact Ho.
    - cstep. eapply complete_bind; [apply (bit_xor_complete _ _ _ _ Hb Ha)|]. intros o Ho. repeat cstep.
      apply has_not. destruct x, y; exact Ho.
    - eapply complete_bind; [apply (bit_xor_complete _ _ _ _ Ha Hb)|]. intros o Ho. cstep.
      destruct x, y; exact Ho.
  Qed.

  Lemma bool_and_sound a b x y : bool_is w a x -> bool_is w b y ->
    sound w (bool_and one a b) (fun o => bool_is w o (x && y)).
  Proof.
    intros Ha Hb. unfold bool_and.
    destruct a as [a|a|[|]], b as [b|b|[|]]; cbn [bool_is] in Ha, Hb;
      try (apply sound_ret; subst; rewrite ?andb_false_r, ?andb_true_r; simpl;
           first [exact Ha | exact Hb | reflexivity]).
    - eapply sound_bind; [apply (bit_and_sound _ _ _ _ Ha Hb)|]. intros o Ho. sstep. exact Ho.
    - eapply sound_bind; [apply (bit_and_not_sound _ _ _ _ Ha Hb)|]. intros o Ho. sstep.
      rewrite negb_involutive in Ho. exact Ho.
    - eapply sound_bind; [apply (bit_and_not_sound _ _ _ _ Hb Ha)|]. intros o Ho. sstep.
      rewrite negb_involutive, andb_comm in Ho. exact Ho.
    - eapply sound_bind; [apply (bit_nor_sound _ _ _ _ Ha Hb)|]. intros o Ho. sstep.
      rewrite !negb_involutive in Ho. exact Ho.
  Qed.
  Lemma bool_and_complete a b x y : bool_has w a x -> bool_has w b y ->
    complete w (bool_and one a b) (fun o => bool_has w o (x && y)).
  Proof.
    intros Ha Hb. unfold bool_and.
    destruct a as [a|a|[|]], b as [b|b|[|]];
      try (apply complete_ret;
           try (pose proof (const_has _ _ Ha); subst); try (pose proof (const_has _ _ Hb); subst);
           rewrite ?andb_false_r, ?andb_true_r; simpl;
           first [exact Ha | exact Hb | apply const_has_intro]);
      open_has.
    - eapply complete_bind; [apply (bit_and_complete _ _ _ _ Ha Hb)|]. intros o Ho. cstep. exact Ho.
    - eapply complete_bind; [apply (bit_and_not_complete _ _ _ _ Ha Hb)|]. intros o Ho. cstep.
      rewrite negb_involutive in Ho. exact Ho.
    - eapply complete_bind; [apply (bit_and_not_complete _ _ _ _ Hb Ha)|]. intros o Ho. cstep.
      rewrite negb_involutive, andb_comm in Ho. exact Ho.
    - eapply complete_bind; [apply (bit_nor_complete _ _ _ _ Ha Hb)|]. intros o Ho. cstep.
      rewrite !negb_involutive in Ho. exact Ho.
  Qed.

  (** choice *)
  Lemma ch_gate_sound a b c val x y z : bool_is w a x -> bool_is w b y -> bool_is w c z ->
    sound w (sha256_ch_gate one a b c val) (fun o => bool_is w o (Ch x y z)).
  Proof.
    intros Ha Hb Hc. unfold sha256_ch_gate. repeat sstep. lcv OL. eqz OL.
    rewrite (bool_lc1_val _ _ Ha), (bool_lc1_val _ _ Hb), (bool_lc1_val _ _ Hc) in *.
    cbn [bool_is]. unfold bit_is. cbn [bit_var].
    match goal with |- w ?r = _ =>
      assert (E : fsub (w r) (of_bit z) = fmul (of_bit x) (fsub (of_bit y) (of_bit z))) by congruence;
      transitivity (fadd (fsub (w r) (of_bit z)) (of_bit z)); [ring|] end.
    rewrite E. destruct x, y, z; simpl; ring.
  Qed.
  Lemma ch_gate_complete a b c val x y z : bool_has w a x -> bool_has w b y -> bool_has w c z ->
    val = Some (Ch x y z) ->
    complete w (sha256_ch_gate one a b c val) (fun o => bool_has w o (Ch x y z)).
  Proof.
    intros [Ha Ha'] [Hb Hb'] [Hc Hc'] ->. unfold sha256_ch_gate. rewrite Ha', Hb', Hc'. simpl.
    rewrite !fb_of_bit.
    repeat (cstep; try reflexivity); lcv OL; rewrite ?(bool_lc1_val _ _ Ha), ?(bool_lc1_val _ _ Hb),
      ?(bool_lc1_val _ _ Hc); cfin.
  Qed.
  Lemma ch_bits_Ch x y z : ch_bits x y z = Ch x y z.
  Proof. destruct x, y, z; reflexivity. Qed.
  Lemma maj_bits_Maj x y z : maj_bits x y z = Maj x y z.
  Proof. destruct x, y, z; reflexivity. Qed.

  Local Ltac open_is := repeat match goal with
    | H : bool_is _ (Constant _) _ |- _ => cbn [bool_is] in H; subst end.
  Local Ltac open_bits := repeat match goal with x : bool |- _ => destruct x end.
  Local Ltac sbool G :=
    cbv beta iota zeta;
    first [ apply G
          | apply sound_ret; open_is; first [assumption | open_bits; reflexivity]
          | eapply sound_weaken; [eapply bool_and_sound; eassumption|]; cbv beta; intros o Ho;
            open_is; open_bits; exact Ho
          | eapply sound_bind; [eapply bool_and_sound; eassumption|]; cbv beta; intros o Ho;
            apply sound_ret; apply bool_not_is in Ho; open_is; open_bits; exact Ho ].
  Local Ltac cbool G :=
    cbv beta iota zeta;
    first [ apply G
          | apply complete_ret;
            repeat match goal with H : bool_has _ (Constant _) _ |- _ => apply const_has in H; subst end;
            first [assumption | open_bits; apply const_has_intro]
          | eapply complete_weaken; [eapply bool_and_complete; eassumption|]; cbv beta; intros o Ho;
            repeat match goal with H : bool_has _ (Constant _) _ |- _ => apply const_has in H; subst end;
            open_bits; exact Ho
          | eapply complete_bind; [eapply bool_and_complete; eassumption|]; cbv beta; intros o Ho;
            apply complete_ret; apply bool_not_has in Ho;
            repeat match goal with H : bool_has _ (Constant _) _ |- _ => apply const_has in H; subst end;
            open_bits; exact Ho ].

  Lemma bool_sha256_ch_sound a b c x y z : bool_is w a x -> bool_is w b y -> bool_is w c z ->
    sound w (bool_sha256_ch one a b c) (fun o => bool_is w o (Ch x y z)).
  Proof.
    intros Ha Hb Hc. unfold bool_sha256_ch.
    pose proof (bool_not_is _ _ Ha) as Ha'. pose proof (bool_not_is _ _ Hb) as Hb'.
    pose proof (bool_not_is _ _ Hc) as Hc'.
    pose proof (fun val => ch_gate_sound _ _ _ val _ _ _ Ha Hb Hc) as G.
    destruct a as [a|a|[|]], b as [b|b|[|]], c as [c|c|[|]]; sbool G.
  Qed.
  Lemma bool_sha256_ch_complete a b c x y z : bool_has w a x -> bool_has w b y -> bool_has w c z ->
    complete w (bool_sha256_ch one a b c) (fun o => bool_has w o (Ch x y z)).
  Proof.
    intros Ha Hb Hc. unfold bool_sha256_ch.
    pose proof (bool_not_has _ _ Ha) as Ha'. pose proof (bool_not_has _ _ Hb) as Hb'.
    pose proof (bool_not_has _ _ Hc) as Hc'.
    assert (G : complete w (sha256_ch_gate one a b c
      (omap3 ch_bits (bool_value a) (bool_value b) (bool_value c))) (fun o => bool_has w o (Ch x y z))).
    { apply ch_gate_complete; try assumption.
      rewrite (proj2 Ha), (proj2 Hb), (proj2 Hc). simpl. rewrite ch_bits_Ch. reflexivity. }
    destruct a as [a|a|[|]], b as [b|b|[|]], c as [c|c|[|]]; cbool G.
  Qed.

  (** majority *)
  Lemma maj_gate_sound a b c val x y z : bool_is w a x -> bool_is w b y -> bool_is w c z ->
    sound w (sha256_maj_gate one a b c val) (fun o => bool_is w o (Maj x y z)).
  Proof.
    intros Ha Hb Hc. unfold sha256_maj_gate. sstep.
    eapply sound_bind; [apply sound_namespace, (bool_and_sound _ _ _ _ Hb Hc)|]. intros bc Hbc.
    repeat sstep. lcv OL. eqz OL.
    rewrite (bool_lc1_val _ _ Ha), (bool_lc1_val _ _ Hb), (bool_lc1_val _ _ Hc),
      (bool_lc1_val _ _ Hbc) in *.
    cbn [bool_is]. unfold bit_is. cbn [bit_var].
    match goal with |- w ?r = _ =>
      assert (E : fsub (of_bit (y && z)) (w r) =
                  fmul (fsub (fsub (fadd (of_bit (y && z)) (of_bit (y && z))) (of_bit y)) (of_bit z)) (of_bit x))
        by congruence;
      transitivity (fsub (of_bit (y && z)) (fsub (of_bit (y && z)) (w r))); [ring|] end.
    rewrite E. destruct x, y, z; simpl; ring.
  Qed.
  Lemma maj_gate_complete a b c val x y z : bool_has w a x -> bool_has w b y -> bool_has w c z ->
    val = Some (Maj x y z) ->
    complete w (sha256_maj_gate one a b c val) (fun o => bool_has w o (Maj x y z)).
  Proof.
    intros Ha Hb Hc ->. unfold sha256_maj_gate. cbn [ok_or_missing rbind]. cstep; [reflexivity|].
    eapply complete_bind; [apply complete_namespace, (bool_and_complete _ _ _ _ Hb Hc)|].
    intros bc [Hbc Hbc'].
    destruct Ha as [Ha Ha'], Hb as [Hb Hb'], Hc as [Hc Hc'].
    rewrite Ha', Hb', Hc', Hbc'. cbn [ok_or_missing rbind]. rewrite !fb_of_bit in *.
    repeat (cstep; try reflexivity); lcv OL; rewrite ?(bool_lc1_val _ _ Ha), ?(bool_lc1_val _ _ Hb),
      ?(bool_lc1_val _ _ Hc), ?(bool_lc1_val _ _ Hbc); cfin.
  Qed.
  Lemma bool_sha256_maj_sound a b c x y z : bool_is w a x -> bool_is w b y -> bool_is w c z ->
    sound w (bool_sha256_maj one a b c) (fun o => bool_is w o (Maj x y z)).
  Proof.
    intros Ha Hb Hc. unfold bool_sha256_maj.
    pose proof (bool_not_is _ _ Ha) as Ha'. pose proof (bool_not_is _ _ Hb) as Hb'.
    pose proof (bool_not_is _ _ Hc) as Hc'.
    pose proof (fun val => maj_gate_sound _ _ _ val _ _ _ Ha Hb Hc) as G.
    destruct a as [a|a|[|]], b as [b|b|[|]], c as [c|c|[|]]; sbool G.
  Qed.
  Lemma bool_sha256_maj_complete a b c x y z : bool_has w a x -> bool_has w b y -> bool_has w c z ->
    complete w (bool_sha256_maj one a b c) (fun o => bool_has w o (Maj x y z)).
  Proof.
    intros Ha Hb Hc. unfold bool_sha256_maj.
    pose proof (bool_not_has _ _ Ha) as Ha'. pose proof (bool_not_has _ _ Hb) as Hb'.
    pose proof (bool_not_has _ _ Hc) as Hc'.
    assert (G : complete w (sha256_maj_gate one a b c
      (omap3 maj_bits (bool_value a) (bool_value b) (bool_value c))) (fun o => bool_has w o (Maj x y z))).
    { apply maj_gate_complete; try assumption.
      rewrite (proj2 Ha), (proj2 Hb), (proj2 Hc). simpl. rewrite maj_bits_Maj. reflexivity. }
    destruct a as [a|a|[|]], b as [b|b|[|]], c as [c|c|[|]]; cbool G.
  Qed.
End BoolP.
