(** [unpack_fe]. *)
From Coq Require Import String List Bool ZArith Lia Ring Field.
From Verif Require Import Model.FieldTrait Model.Circuits Model.Num Model.Boolean Spec.FieldLaws
  Spec.CircuitSpec Spec.NumSpec Spec.BoolSpec Proofs.FieldGen Proofs.ZtoF Proofs.CircuitP Proofs.LcP
  Proofs.NumP Proofs.BoolP.
Import ListNotations.
Open Scope Z_scope. Open Scope list_scope.

Lemma Forall2_length {A B} (R : A -> B -> Prop) l l' : Forall2 R l l' -> length l = length l'.
Proof. induction 1; simpl; congruence. Qed.
Lemma bits_val_app a b : bits_val (a ++ b) = bits_val a + 2 ^ Z.of_nat (length a) * bits_val b.
Proof.
  induction a as [|x a IH]; [cbn [app bits_val length]; change (2 ^ Z.of_nat 0) with 1; lia|].
  cbn [app bits_val length]. rewrite IH, Nat2Z.inj_succ, Z.pow_succ_r by lia.
  ring.
Qed.
Lemma bits_val_range a : 0 <= bits_val a < 2 ^ Z.of_nat (length a).
Proof.
  induction a as [|x a IH]; [simpl; lia|]. cbn [bits_val length].
  rewrite Nat2Z.inj_succ, Z.pow_succ_r by lia. destruct x; cbn [Z.b2z]; lia.
Qed.
Lemma bits_val_inj a b : length a = length b -> bits_val a = bits_val b -> a = b.
Proof.
  revert b. induction a as [|x a IH]; intros [|y b] HL; try discriminate HL; [reflexivity|].
  cbn [bits_val]. intro H. f_equal.
  - destruct x, y; cbn [Z.b2z] in H; auto; lia.
  - apply IH; [now injection HL|]. destruct x, y; cbn [Z.b2z] in H; lia.
Qed.
(** the [n] low bits of a number *)
Definition low_bits (n : nat) (z : Z) : list bool := map (fun i => Z.testbit z (Z.of_nat i)) (seq 0 n).
Lemma low_bits_length n z : length (low_bits n z) = n.
Proof. unfold low_bits. rewrite map_length, seq_length. reflexivity. Qed.
Lemma low_bits_S n z : low_bits (S n) z = Z.odd z :: low_bits n (z / 2).
Proof.
  unfold low_bits. cbn [seq map]. rewrite Z.bit0_odd. f_equal.
  rewrite <- seq_shift, map_map. apply map_ext. intro i. rewrite Nat2Z.inj_succ.
  rewrite <- Z.div2_div, Z.div2_spec, Z.shiftr_spec by lia. f_equal.
Qed.
Lemma low_bits_val n z : bits_val (low_bits n z) = z mod 2 ^ Z.of_nat n.
Proof.
  revert z. induction n as [|n IH]; intro z.
  - cbn. rewrite Z.mod_1_r. reflexivity.
  - rewrite low_bits_S. cbn [bits_val]. rewrite IH, Nat2Z.inj_succ, Z.pow_succ_r by lia.
    rewrite Z.rem_mul_r by lia. rewrite Zmod_odd. destruct (Z.odd z); reflexivity.
Qed.
Lemma byte_bits_low b : byte_bits b = low_bits 8 b.
Proof. reflexivity. Qed.
Lemma bytes_bits_val bs : Forall byte bs -> bits_val (flat_map byte_bits bs) = le_val bs.
Proof.
  induction 1 as [|b bs Hb _ IH]; [reflexivity|]. cbn [flat_map le_val].
  rewrite bits_val_app, IH, byte_bits_low, low_bits_length, low_bits_val.
  rewrite Z.mod_small by exact Hb. reflexivity.
Qed.
Lemma bytes_bits_length bs : length (flat_map byte_bits bs) = (8 * length bs)%nat.
Proof. induction bs as [|b bs IH]; [reflexivity|]. cbn [flat_map length]. rewrite app_length, IH. rewrite byte_bits_low, low_bits_length. lia. Qed.

Section Unpack.
  Context {F : Field} {p : Z} {v : F -> Z} (FL : FieldLaws F p v) (one : Var).
  Let OL : OpsLaws F p v := fl_ops _ _ _ FL.
  Add Field Ff : (ffield OL).
  Variable w : assignment F.
  Hypothesis w_one : w one = fone.

  Lemma fe_bits_val (x : F) : length (fe_bits x) = 256%nat /\ bits_val (fe_bits x) = v x.
  Proof.
    destruct (fl_to_bytes _ _ _ FL x) as (HL & HB & HV). unfold fe_bits. split.
    - rewrite bytes_bits_length, HL. reflexivity.
    - rewrite bytes_bits_val by exact HB. exact HV.
  Qed.

  Lemma of_bit_fz x : of_bit x = fz (Z.b2z x) :> F.
  Proof. destruct x; reflexivity. Qed.
  Lemma bits_lc_val bools bs : Forall2 (bit_is w) bools bs -> forall lc c,
    lc_val w (bits_lc lc (fz c) bools) = fadd (lc_val w lc) (fz (c * bits_val bs)).
  Proof.
    induction 1 as [|b x bools bs Hb _ IH]; intros lc c; cbn [bits_lc bits_val].
    - rewrite Z.mul_0_r. simpl fz. ring.
    - rewrite (fz_double OL), IH, (lc_val_add_cv OL). unfold bit_is in Hb. rewrite Hb.
      simpl coeff_val. rewrite of_bit_fz, Z.mul_add_distr_l.
      replace (2 * c * bits_val bs) with (c * (2 * bits_val bs)) by ring.
      rewrite (fz_add OL), (fz_mul OL c (Z.b2z x)). ring.
  Qed.

  Lemma n_value_bits (num : Num F) :
    length (match n_value num with Some value => map Some (fe_bits value) | None => repeat (@None bool) 256 end)
    = 256%nat.
  Proof.
    destruct (n_value num); [rewrite map_length; apply fe_bits_val|apply repeat_length].
  Qed.
  Lemma Forall2_exists {A B} (R : A -> B -> Prop) l :
    Forall (fun a => exists b, R a b) l -> exists l', Forall2 R l l'.
  Proof.
    induction 1 as [|a l [b Hb] _ [l' Hl]]; [exists []; constructor|].
    exists (b :: l'). constructor; assumption.
  Qed.

  Lemma unpack_fe_sound num :
    sound w (unpack_fe one num) (fun bits => exists bs,
      length bits = 256%nat /\ Forall2 (bit_is w) bits bs /\ bits_val bs mod p = v (n_val w num)).
  Proof.
    unfold unpack_fe. cbv zeta.
    eapply sound_bind.
    { apply (sound_mapM w _ (fun _ b => exists x, bit_is w b x)). intros x _. apply sound_namespace.
      apply (bit_alloc_sound FL). }
    intros bits HB. cbv beta in HB. sstep. sstep.
    assert (HL : length bits = 256%nat).
    { rewrite <- (n_value_bits num). symmetry. eapply Forall2_length. exact HB. }
    destruct (Forall2_exists (bit_is w) bits) as [bs Hbs].
    { clear - HB. induction HB; constructor; auto. }
    exists bs. split; [exact HL|]. split; [exact Hbs|].
    rewrite (lc_val_sub_lc OL) in H. apply (proj1 (fsub_zero OL _ _)) in H.
    rewrite (n_lc_val FL one w w_one) in H. rewrite <- H.
    change (@fone F) with (@fz F 1). rewrite (bits_lc_val _ _ Hbs), lc_val_zero, Z.mul_1_l.
    rewrite <- (v_fz OL). f_equal. ring.
  Qed.

  Lemma complete_mapM_bits (vals : list bool) :
    complete w (mapM (fun value => namespace "bit i"%string (bit_alloc (ok_or_missing value))) (map Some vals))
      (fun bits => Forall2 (bit_has w) bits vals).
  Proof.
    induction vals as [|x vals IH]; cbn [map mapM].
    - apply complete_ret. constructor.
    - eapply complete_bind; [apply complete_namespace, (bit_alloc_complete FL one w (ok_or_missing (Some x)) x eq_refl)|].
      intros b Hb. eapply complete_bind; [exact IH|]. intros bs Hbs. apply complete_ret.
      constructor; assumption.
  Qed.
  Lemma bits_has_is bits bs : Forall2 (bit_has w) bits bs -> Forall2 (bit_is w) bits bs.
  Proof. induction 1; constructor; auto. apply H. Qed.
  Lemma unpack_fe_complete num : n_ok w num ->
    complete w (unpack_fe one num) (fun bits => exists bs,
      length bits = 256%nat /\ Forall2 (bit_has w) bits bs /\ bits_val bs = v (n_val w num)).
  Proof.
    intro Hn. unfold unpack_fe. rewrite Hn. cbv zeta.
    eapply complete_bind; [apply complete_mapM_bits|]. intros bits Hb.
    destruct (fe_bits_val (n_val w num)) as [HL HV].
    cstep.
    - rewrite (lc_val_sub_lc OL), (n_lc_val FL one w w_one). change (@fone F) with (@fz F 1).
      rewrite (bits_lc_val _ _ (bits_has_is _ _ Hb)), lc_val_zero, Z.mul_1_l, HV, (fz_v OL). ring.
    - cstep. exists (fe_bits (n_val w num)). split; [|split]; auto.
      rewrite <- HL. eapply Forall2_length. exact Hb.
  Qed.
End Unpack.

(** Every decomposition of the value modulo [p] into 256 bits is accepted. *)
Section NotUnique.
  Context {F : Field} {p : Z} {v : F -> Z} (FL : FieldLaws F p v).
  Let OL : OpsLaws F p v := fl_ops _ _ _ FL.
  Add Field Ff2 : (ffield OL).

  Definition bit_vars (vals : list (option bool)) (i : nat) : list AllocatedBit :=
    map (fun '(x, j) => mkBit x (VA j)) (combine vals (seq i (length vals))).
  Lemma exec_bits (vals : list (option bool)) : forall i,
    exists tr,
      Exec (mapM (fun value => namespace "bit i"%string (bit_alloc (F := F) (ok_or_missing value))) vals) tr
        (Some (Ok (bit_vars vals i))) /\
      forall w : assignment F,
        (forall j, (i <= j)%nat -> w (VB j) = w (VA j) /\ w (VC j) = w (VA j) /\ exists x, w (VA j) = of_bit x) ->
        constraints_hold w tr.
  Proof.
    induction vals as [|x vals IH]; intro i.
    - exists []. split; [constructor|]. intros. constructor.
    - destruct (IH (S i)) as (tr & E & H).
      exists ([EvMul (VA i) (VB i) (VC i) None; EvLC (lc_sub_v (lc_from (VA i)) (VB i));
               EvLC (lc_sub_v (lc_from (VB i)) (VC i))] ++ tr). split.
      + cbn [mapM]. unfold bind at 1.
        eapply exec_pbind_intro with (a := Ok (mkBit x (VA i))).
        * apply exec_namespace_intro. unfold bit_alloc, multiply, bind, enforce_zero.
          cbn [pbind]. apply ExMul_skip with (b := true). cbn.
          apply ExLC. apply ExLC.
          replace (kept _ _) with x; [constructor|]. destruct x; reflexivity.
        * cbn beta iota. unfold bind. rewrite <- (app_nil_r tr).
          eapply exec_pbind_intro; [exact E|]. constructor.
      + intros w Hw. apply Forall_app. split; [|apply H; intros j Hj; apply Hw; lia].
        destruct (Hw i (le_n i)) as (H1 & H2 & b & H3).
        repeat constructor; cbn [holds]; lcv OL; rewrite ?H1, ?H2, ?H3; try ring.
        destruct b; simpl; ring.
  Qed.

  Definition unpack_wit (x : F) (bs : list bool) : assignment F := fun y =>
    match y with
    | VA 1 => fone
    | VA 2 => x
    | VA (S (S (S j))) | VB (S (S (S j))) | VC (S (S (S j))) => of_bit (nth j bs false)
    | _ => fzero
    end.
  Lemma bit_vars_is x bs : forall vals i bs', length vals = length bs' ->
    (forall k, nth (i + k) bs false = nth k bs' false) ->
    Forall2 (bit_is (unpack_wit x bs)) (bit_vars vals (S (S (S i)))) bs'.
  Proof.
    induction vals as [|y vals IH]; intros i [|b bs'] HL Hn; try discriminate HL; [constructor|].
    unfold bit_vars. cbn [length seq combine map]. constructor.
    - unfold bit_is. simpl. specialize (Hn 0%nat). rewrite Nat.add_0_r in Hn. rewrite Hn. reflexivity.
    - apply (IH (S i)); [now injection HL|]. intro k. specialize (Hn (S k)). simpl nth in Hn at 2. rewrite <- Hn. f_equal. lia.
  Qed.
  Theorem unpack_fe_not_unique (x : F) : exists num tr bits,
    n_value num = Some x /\ Exec (unpack_fe (VA 1) num) tr (Some (Ok bits)) /\
    forall bs, length bs = 256%nat -> bits_val bs mod p = v x ->
    exists w, w (VA 1) = fone /\ n_val w num = x /\ constraints_hold w tr /\ Forall2 (bit_is w) bits bs.
  Proof.
    set (num := NAllocated COne (mkNum (Some x) (VA 2))).
    destruct (exec_bits (map Some (fe_bits x)) 3) as (tr & E & H).
    set (bits := bit_vars (map Some (fe_bits x)) 3) in *.
    exists num, (tr ++ [EvLC (lc_sub_lc (bits_lc lc_zero fone bits) (n_lc (VA 1) num))]), bits.
    assert (Hx : n_value num = Some x) by (cbn; f_equal; ring).
    split; [exact Hx|]. split.
    { unfold unpack_fe. rewrite Hx. cbv zeta. unfold bind at 1.
      eapply exec_pbind_intro; [exact E|]. cbn beta iota. unfold enforce_zero, bind. cbn [pbind ret].
      apply ExLC. constructor. }
    intros bs HL HV. exists (unpack_wit x bs).
    assert (HB : Forall2 (bit_is (unpack_wit x bs)) bits bs).
    { apply bit_vars_is; [|reflexivity]. rewrite map_length, HL. apply (fe_bits_val FL). }
    assert (Hn : n_val (unpack_wit x bs) num = x) by (unfold num, n_val, num_val; simpl; ring).
    split; [reflexivity|]. split; [exact Hn|]. split; [|exact HB].
    apply Forall_app. split.
    - apply H. intros [|[|[|j]]] Hj; try lia. repeat split; try reflexivity. eexists. reflexivity.
    - constructor; [|constructor]. cbn [holds].
      rewrite (lc_val_sub_lc OL), (n_lc_val FL (VA 1) (unpack_wit x bs) eq_refl), Hn.
      change (@fone F) with (@fz F 1). rewrite (bits_lc_val FL _ _ _ HB), lc_val_zero, Z.mul_1_l.
      assert (Ex : @fz F (bits_val bs) = x).
      { rewrite <- (fz_v OL x). apply (fz_eq OL). rewrite HV. symmetry. apply (v_mod OL). }
      rewrite Ex. ring.
  Qed.
  (** So no value has a unique decomposition. *)
  Theorem unpack_fe_second (x : F) : exists num tr bits w w',
    n_value num = Some x /\ Exec (unpack_fe (VA 1) num) tr (Some (Ok bits)) /\
    w (VA 1) = fone /\ w' (VA 1) = fone /\ n_val w num = x /\ n_val w' num = x /\
    constraints_hold w tr /\ constraints_hold w' tr /\
    map (fun b => w (bit_var b)) bits <> map (fun b => w' (bit_var b)) bits.
  Proof.
    destruct (unpack_fe_not_unique x) as (num & tr & bits & Hx & E & H).
    pose proof (ol_range _ _ _ OL x) as Rx. pose proof (fl_size _ _ _ FL) as Sz.
    assert (P : 2 ^ 256 = 2 * 2 ^ 255) by reflexivity.
    set (b1 := low_bits 256 (v x)). set (b2 := low_bits 256 (v x + p)).
    assert (V1 : bits_val b1 = v x).
    { unfold b1. rewrite low_bits_val. apply Z.mod_small. change (Z.of_nat 256) with 256. lia. }
    assert (V2 : bits_val b2 = v x + p).
    { unfold b2. rewrite low_bits_val. apply Z.mod_small. change (Z.of_nat 256) with 256. lia. }
    destruct (H b1 (low_bits_length _ _)) as (w & W1 & W2 & W3 & W4); [rewrite V1; apply (v_mod OL)|].
    destruct (H b2 (low_bits_length _ _)) as (w' & W1' & W2' & W3' & W4').
    { rewrite V2, <- Zplus_mod_idemp_r, Z_mod_same_full, Z.add_0_r. apply (v_mod OL). }
    exists num, tr, bits, w, w'. repeat (split; [assumption|]).
    intro Eq. assert (Q : bits_val b1 <> bits_val b2) by lia. apply Q. f_equal.
    clear - W4 W4' Eq OL FL. revert Eq. revert W4 W4'. generalize b1 b2. clear b1 b2. intros b1 b2 H1.
    revert b2. induction H1 as [|b x1 bits b1 Hb H1 IH]; intros b2 H2 Eq; inversion H2; subst; [reflexivity|].
    cbn [map] in Eq. injection Eq as E1 E2. f_equal; [|apply IH; assumption].
    unfold bit_is in *. apply (of_bit_inj FL). congruence.
  Qed.
End NotUnique.

(** Statements collected for the property files. *)
Ltac conjs := repeat match goal with |- _ /\ _ => split | |- forall _, _ => intro end.
Section Top.
  Theorem allocated_bits (F : Field) p v (FL : FieldLaws F p v) (w : assignment F) (one : Var) :
    w one = fone ->
    forall (val : res bool) (a b : AllocatedBit) (x y : bool),
    (sound w (bit_alloc val) (fun o => exists z, bit_is w o z) /\
     sound w (bit_check a) (fun _ => exists z, bit_is w a z)) /\
    (val = Ok x -> complete w (bit_alloc val) (fun o => bit_has w o x) /\
                   complete w (bit_alloc_input_unchecked val) (fun o => bit_has w o x)) /\
    (bit_has w a x -> complete w (bit_check a) (fun _ => True)) /\
    bit_has w (bit_one one) true /\
    (bit_is w a x -> bit_is w b y ->
     sound w (bit_and a b) (fun o => bit_is w o (x && y)) /\
     sound w (bit_xor a b) (fun o => bit_is w o (xorb x y)) /\
     sound w (bit_and_not one a b) (fun o => bit_is w o (x && negb y)) /\
     sound w (bit_nor one a b) (fun o => bit_is w o (negb (x || y)))) /\
    (bit_has w a x -> bit_has w b y ->
     complete w (bit_and a b) (fun o => bit_has w o (x && y)) /\
     complete w (bit_xor a b) (fun o => bit_has w o (xorb x y)) /\
     complete w (bit_and_not one a b) (fun o => bit_has w o (x && negb y)) /\
     complete w (bit_nor one a b) (fun o => bit_has w o (negb (x || y)))).
  Proof.
    intros w1 val a b x y. rewrite negb_orb. conjs.
    all: first [ eapply bit_alloc_sound; eassumption | eapply bit_check_sound; eassumption
      | eapply bit_alloc_complete; eassumption
      | eapply bit_alloc_input_unchecked_complete; eassumption
      | eapply bit_check_complete; eassumption | exact (conj w1 eq_refl)
      | eapply bit_and_sound; eassumption | eapply bit_xor_sound; eassumption
      | eapply bit_and_not_sound; eassumption | eapply bit_nor_sound; eassumption
      | eapply bit_and_complete; eassumption | eapply bit_xor_complete; eassumption
      | eapply bit_and_not_complete; eassumption | eapply bit_nor_complete; eassumption ].
  Qed.

  Theorem boolean_ops (F : Field) p v (FL : FieldLaws F p v) (w : assignment F) (one : Var) :
    w one = fone ->
    forall (a b c : Boolean) (x y z : bool),
    (bool_is w a x -> bool_is w b y -> bool_is w c z ->
     bool_is w (bool_not a) (negb x) /\
     (forall k, lc_val w (bool_lc a one k) = fmul (coeff_val k) (of_bit x)) /\
     sound w (bool_xor a b) (fun o => bool_is w o (xorb x y)) /\
     sound w (bool_and one a b) (fun o => bool_is w o (x && y)) /\
     sound w (bool_enforce_equal one a b) (fun _ => x = y) /\
     sound w (bool_sha256_ch one a b c) (fun o => bool_is w o (Ch x y z)) /\
     sound w (bool_sha256_maj one a b c) (fun o => bool_is w o (Maj x y z))) /\
    (bool_has w a x -> bool_has w b y -> bool_has w c z ->
     bool_has w (bool_not a) (negb x) /\
     complete w (bool_xor a b) (fun o => bool_has w o (xorb x y)) /\
     complete w (bool_and one a b) (fun o => bool_has w o (x && y)) /\
     (x = y -> complete w (bool_enforce_equal one a b) (fun _ => True)) /\
     complete w (bool_sha256_ch one a b c) (fun o => bool_has w o (Ch x y z)) /\
     complete w (bool_sha256_maj one a b c) (fun o => bool_has w o (Maj x y z))).
  Proof.
    intros w1 a b c x y z. split; intros Ha Hb Hc; conjs; subst.
    - apply bool_not_is; eassumption.
    - eapply bool_lc_val; eassumption.
    - eapply bool_xor_sound; eassumption.
    - eapply bool_and_sound; eassumption.
    - eapply bool_enforce_equal_sound; eassumption.
    - eapply bool_sha256_ch_sound; eassumption.
    - eapply bool_sha256_maj_sound; eassumption.
    - apply bool_not_has; eassumption.
    - eapply bool_xor_complete; eassumption.
    - eapply bool_and_complete; eassumption.
    - eapply bool_enforce_equal_complete; eassumption.
    - eapply bool_sha256_ch_complete; eassumption.
    - eapply bool_sha256_maj_complete; eassumption.
  Qed.
End Top.
