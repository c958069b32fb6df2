(** Byte encodings of leftovers and of deferred data: lengths, what they determine,
    and the bits of small values. *)
From Coq Require Import ZArith List Bool Arith Lia.
From Verif Require Import Model.FieldTrait Model.Curve Model.Circuits Model.Boolean Model.Util Model.Proofs Model.Recursion
  Spec.FieldLaws Spec.CurveSpec Spec.CurveLaws Spec.BoolSpec Spec.RecursionSpec
  Proofs.MultiexpP Proofs.UnpackP Proofs.ZtoF Proofs.CurveTop Proofs.RecursionDeferredP.
Import ListNotations.
Open Scope nat_scope. Open Scope list_scope.

Lemma le_val_inj : forall a b, length a = length b -> Forall byte a -> Forall byte b -> le_val a = le_val b -> a = b.
Proof.
  induction a as [|x a IH]; intros [|y b] HL Ha Hb E; try discriminate HL; [reflexivity|].
  inversion Ha as [|? ? Hx Ha']; subst. inversion Hb as [|? ? Hy Hb']; subst. cbn [le_val] in E. unfold byte in Hx, Hy.
  assert (x = y) by lia. subst y. f_equal. apply IH; [injection HL; auto|assumption|assumption|lia].
Qed.
Lemma app_split {A} (a a' b b' : list A) : length a = length a' -> a ++ b = a' ++ b' <-> a = a' /\ b = b'.
Proof.
  revert a'. induction a as [|x a IH]; intros [|y a'] HL; try discriminate HL; cbn [app].
  - split; [intro H; split; [reflexivity|exact H]|intros [_ H]; exact H].
  - injection HL as HL. specialize (IH a' HL). split.
    + intro E. injection E as E1 E2. subst y. apply IH in E2. destruct E2. subst. split; reflexivity.
    + intros [E1 E2]. injection E1 as E1 E3. subst. reflexivity.
Qed.

Lemma F2_same {A B} (R : A -> B -> Prop) : forall a a' b b', length a = length a' -> Forall2 R (a ++ b) (a' ++ b') ->
  Forall2 R a a' /\ Forall2 R b b'.
Proof.
  induction a as [|x a IH]; intros [|y a'] b b' HL H; try discriminate HL; cbn [app] in H; [split; [constructor|exact H]|].
  inversion H as [|? ? ? ? H1 H2]; subst. injection HL as HL. destruct (IH _ _ _ HL H2). split; [constructor; assumption|assumption].
Qed.

Section Field.
  Context {F : Field} (p : Z) (v : F -> Z) (FL : FieldLaws F p v).
  Notation half := (fun x : F => firstn 16 (f_to_bytes x)).

  Lemma fb_len (x : F) : length (f_to_bytes x) = 32. Proof. apply (fl_to_bytes _ _ _ FL x). Qed.
  Lemma fb_byte (x : F) : Forall byte (f_to_bytes x). Proof. apply (fl_to_bytes _ _ _ FL x). Qed.
  Lemma fb_inj (x y : F) : f_to_bytes x = f_to_bytes y <-> x = y.
  Proof.
    split; [|intro; subst; reflexivity]. intro E. apply (ol_inj _ _ _ (fl_ops _ _ _ FL)).
    destruct (fl_to_bytes _ _ _ FL x) as [_ [_ <-]]. destruct (fl_to_bytes _ _ _ FL y) as [_ [_ <-]]. rewrite E. reflexivity.
  Qed.
  Lemma half_len (x : F) : length (half x) = 16.
  Proof. cbv beta. rewrite firstn_length, fb_len. reflexivity. Qed.
  Lemma half_byte (x : F) : Forall byte (half x).
  Proof. apply Forall_forall. intros b Hb. pose proof (fb_byte x) as H. rewrite Forall_forall in H. apply H.
    rewrite <- (firstn_skipn 16 (f_to_bytes x)). apply in_or_app. left. exact Hb. Qed.
  Lemma half_val (x : F) : le_val (half x) = (le_val (f_to_bytes x) mod 2 ^ 128)%Z.
  Proof. cbv beta. rewrite (le_val_firstn 16 _ (fb_byte x)). reflexivity. Qed.
  Lemma half_inj (x y : F) : half x = half y <-> same_low x y.
  Proof.
    unfold same_low. rewrite <- !half_val. split; [intro E; cbv beta in *; rewrite E; reflexivity|].
    intro E. apply le_val_inj; [rewrite (half_len x), (half_len y); reflexivity|apply half_byte|apply half_byte|exact E].
  Qed.
  Lemma halves_len (l : list F) : length (flat_map half l) = 16 * length l.
  Proof. induction l as [|x l IH]; [reflexivity|]. cbn [flat_map length]. rewrite app_length, (half_len x), IH. lia. Qed.
  Lemma halves_inj : forall (l l' : list F), flat_map half l = flat_map half l' <-> Forall2 same_low l l'.
  Proof.
    induction l as [|x l IH]; intros [|y l'].
    - cbn. split; [constructor|reflexivity].
    - split; [intro E|intro H; inversion H]. apply (f_equal (@length _)) in E. rewrite !halves_len in E. cbn [length] in E. lia.
    - split; [intro E|intro H; inversion H]. apply (f_equal (@length _)) in E. rewrite !halves_len in E. cbn [length] in E. lia.
    - cbn [flat_map]. rewrite (app_split (half x) (half y)) by (rewrite (half_len x), (half_len y); reflexivity).
      rewrite (half_inj x y), (IH l'). split; [intros [H1 H2]; constructor; assumption|intro H; inversion H; split; assumption].
  Qed.

  Lemma deferred_len (D : Deferred F) : length (deferred_to_bytes D) =
    448 + 16 * (length (d_challenges_sq_packed_old D) + length (d_challenges_sq_packed_new D)).
  Proof.
    unfold deferred_to_bytes. rewrite !app_length, !halves_len, !fb_len.
    rewrite (half_len (d_x D)), (half_len (d_y_old D)), (half_len (d_y_cur D)), (half_len (d_y_new D)). lia.
  Qed.
  Lemma deferred_inj (D E : Deferred F) : length (d_challenges_sq_packed_old D) = length (d_challenges_sq_packed_old E) ->
    deferred_to_bytes D = deferred_to_bytes E <->
    full_parts D = full_parts E /\ Forall2 same_low (half_parts D) (half_parts E).
  Proof.
    intro HL. unfold deferred_to_bytes, full_parts, half_parts.
    do 4 (rewrite (app_split (firstn 16 _) (firstn 16 _)) by (rewrite !(firstn_length), !fb_len; reflexivity)).
    do 6 (rewrite (app_split (f_to_bytes _) (f_to_bytes _)) by (rewrite !fb_len; reflexivity)).
    rewrite (app_split (flat_map half (d_challenges_sq_packed_old D)) (flat_map half (d_challenges_sq_packed_old E)))
      by (rewrite !halves_len, HL; reflexivity).
    rewrite (app_split (f_to_bytes _) (f_to_bytes _)) by (rewrite !fb_len; reflexivity).
    rewrite (half_inj (d_x D)), (half_inj (d_y_old D)), (half_inj (d_y_cur D)), (half_inj (d_y_new D)), !halves_inj, !fb_inj.
    set (tl := fun D : Deferred F => f_to_bytes (d_b_x D) ++ f_to_bytes (d_b_xy D) ++ f_to_bytes (d_b_y_old D) ++
      f_to_bytes (d_b_y_cur D) ++ f_to_bytes (d_b_y_new D)).
    assert (T : forall D E, tl D = tl E <-> d_b_x D = d_b_x E /\ d_b_xy D = d_b_xy E /\ d_b_y_old D = d_b_y_old E /\
      d_b_y_cur D = d_b_y_cur E /\ d_b_y_new D = d_b_y_new E).
    { intros D1 E1. unfold tl. do 4 (rewrite (app_split (f_to_bytes _) (f_to_bytes _)) by (rewrite !fb_len; reflexivity)).
      rewrite !fb_inj. tauto. }
    assert (TT : flat_map half (d_challenges_sq_packed_new D) ++ tl D = flat_map half (d_challenges_sq_packed_new E) ++ tl E <->
      Forall2 same_low (d_challenges_sq_packed_new D) (d_challenges_sq_packed_new E) /\ tl D = tl E).
    { assert (HT : forall D, length (tl D) = 160) by (intro D1; unfold tl; rewrite !app_length, !fb_len; reflexivity).
      split.
      - intro H. assert (L : length (flat_map half (d_challenges_sq_packed_new D)) = length (flat_map half (d_challenges_sq_packed_new E))).
        { apply (f_equal (@length _)) in H. rewrite !app_length, !HT in H. lia. }
        rewrite (app_split _ _ _ _ L), halves_inj in H. exact H.
      - intros [H1 H2]. apply halves_inj in H1. rewrite H1, H2. reflexivity. }
    unfold tl in TT at 1 2. rewrite TT, T. clear TT T tl. cbn [app]. split.
    - intros (A1&A2&A3&A4&A5&A6&A7&A8&A9&A10&A11&A12&A13&A14&A15&A16&A17&A18). split; [congruence|].
      repeat (apply Forall2_cons; [assumption|]). apply Forall2_app; assumption.
    - intros [A B]. do 4 (inversion B as [|? ? ? ? ? B']; subst; clear B; rename B' into B).
      apply F2_same in B; [|exact HL]. destruct B. injection A as A1 A2 A3 A4 A5 A6 A7 A8 A9 A10 A11 A12. tauto.
  Qed.

  Lemma small_same (x y : F) : small x -> small y -> same_low x y <-> x = y.
  Proof.
    unfold small, same_low. intros Hx Hy. split; [|intro; subst; reflexivity]. intro E.
    destruct (fl_to_bytes _ _ _ FL x) as [_ [_ Vx]]. destruct (fl_to_bytes _ _ _ FL y) as [_ [_ Vy]].
    pose proof (ol_range _ _ _ (fl_ops _ _ _ FL) x). pose proof (ol_range _ _ _ (fl_ops _ _ _ FL) y).
    rewrite !Z.mod_small in E by lia. apply (ol_inj _ _ _ (fl_ops _ _ _ FL)). lia.
  Qed.
  Lemma smalls_same : forall l l' : list F, Forall small l -> Forall small l' -> Forall2 same_low l l' <-> l = l'.
  Proof.
    intros l l' H. revert l'. induction H as [|x l Hx _ IH]; intros [|y l'] H'.
    - split; constructor.
    - split; [intro E; inversion E|discriminate].
    - split; [intro E; inversion E|discriminate].
    - inversion H' as [|? ? Hy Hl']; subst. split.
      + intro E. inversion E as [|? ? ? ? E1 E2]; subst. apply (small_same x y Hx Hy) in E1. apply (IH _ Hl') in E2. congruence.
      + intro E. injection E as -> ->. constructor; [reflexivity|apply (IH _ Hl'); reflexivity].
  Qed.
  Lemma numbers_full (x : F) l bs : numbers p v l bs -> numbers p v ((256, x) :: l) (bytes_bits (f_to_bytes x) ++ bs).
  Proof.
    intro H. destruct (fl_to_bytes _ _ _ FL x) as (HL & HB & HV). constructor; [|unfold bytes_bits; rewrite bytes_bits_val by exact HB; rewrite HV|exact H].
    - unfold bytes_bits. rewrite bytes_bits_length, HL. reflexivity.
    - symmetry. apply Z.mod_small, (ol_range _ _ _ (fl_ops _ _ _ FL)).
  Qed.
  Lemma numbers_half (x : F) l bs : small x -> numbers p v l bs -> numbers p v ((128, x) :: l) (bytes_bits (firstn 16 (f_to_bytes x)) ++ bs).
  Proof.
    intros Hs H. pose proof (half_len x) as HL. pose proof (half_byte x) as HB. pose proof (half_val x) as HV. cbv beta in *.
    constructor; [|unfold bytes_bits; rewrite bytes_bits_val by exact HB; rewrite HV|exact H].
    - unfold bytes_bits. rewrite bytes_bits_length, HL. reflexivity.
    - unfold small in Hs. destruct (fl_to_bytes _ _ _ FL x) as (_ & _ & V). pose proof (ol_range _ _ _ (fl_ops _ _ _ FL) x) as R.
      rewrite (Z.mod_small (le_val _)) by lia. rewrite V. symmetry. apply Z.mod_small. exact R.
  Qed.
  Lemma numbers_halves (xs : list F) l bs : Forall small xs -> numbers p v l bs ->
    numbers p v (map (pair 128) xs ++ l) (bytes_bits (flat_map half xs) ++ bs).
  Proof.
    intros H Hn. induction H as [|x xs Hx _ IH]; [exact Hn|]. cbn [map flat_map app]. unfold bytes_bits.
    rewrite flat_map_app, <- app_assoc. apply (numbers_half x _ _ Hx). exact IH.
  Qed.
  Lemma bytes_bits_app a b : bytes_bits (a ++ b) = bytes_bits a ++ bytes_bits b.
  Proof. apply flat_map_app. Qed.
  Lemma encodes_bytes k (D : Deferred F) : length (d_challenges_sq_packed_old D) = k -> length (d_challenges_sq_packed_new D) = k ->
    Forall small (half_parts D) -> encodes_deferred p v k D (bytes_bits (deferred_to_bytes D)).
  Proof.
    intros H1 H2 HS. split; [exact H1|]. split; [exact H2|]. unfold half_parts in HS. cbn [app] in HS.
    do 4 (apply Forall_cons_iff in HS; destruct HS as [? HS]). apply Forall_app in HS. destruct HS as [Ho Hn].
    unfold deferred_layout, deferred_to_bytes. rewrite !bytes_bits_app. cbn [app].
    do 4 (apply numbers_half; [assumption|]). do 6 apply numbers_full.
    apply numbers_halves; [exact Ho|]. apply numbers_full. apply numbers_halves; [exact Hn|]. do 4 apply numbers_full.
    rewrite <- (app_nil_r (bytes_bits (f_to_bytes (d_b_y_new D)))). apply numbers_full. constructor.
  Qed.
End Field.

Section Points.
  Context {C : Curve} {q vb r vs} (CL : CurveLaws C q vb r vs).
  Let BL := cl_base _ _ _ _ _ CL.
  Let SL := cl_scalar _ _ _ _ _ CL.

  Lemma point_len (P : C) : length (point_bytes P) = 64.
  Proof. unfold point_bytes. destruct (c_get_xy P) as [[x y]|]; rewrite app_length, !(fb_len _ _ BL); reflexivity. Qed.
  Lemma point_inj (P Q : C) : valid P -> valid Q -> point_bytes P = point_bytes Q <-> same_point P Q.
  Proof.
    intros [A HA] [B HB]. pose proof (get_xy_top CL P A HA) as [EA CA]. pose proof (get_xy_top CL Q B HB) as [EB CB].
    pose proof (zero_not_on CL) as Z0. unfold point_bytes. rewrite EA, EB. split.
    - intro E. exists A. split; [exact HA|]. replace A with B; [exact HB|].
      destruct A as [[x y]|], B as [[x' y']|]; try reflexivity;
        rewrite (app_split (f_to_bytes _) (f_to_bytes _)) in E by (rewrite !(fb_len _ _ BL); reflexivity);
        rewrite !(fb_inj _ _ BL) in E; destruct E; subst; [reflexivity|contradiction|contradiction].
    - intros (X & HX & HY). rewrite (represents_fun CL P A X HA HX), (represents_fun CL Q B X HB HY). reflexivity.
  Qed.
  Lemma leftovers_len (l : Leftovers C) : length (leftovers_to_bytes l) = 144 + 16 * length (challenges_sq_packed_new l).
  Proof.
    unfold leftovers_to_bytes. rewrite !app_length, !point_len, (halves_len _ _ SL), (half_len _ _ SL (y_new l)). lia.
  Qed.
  Lemma leftovers_inj (a b : Leftovers C) : valid (s_new_commitment a) -> valid (g_new a) -> valid (s_new_commitment b) -> valid (g_new b) ->
    leftovers_to_bytes a = leftovers_to_bytes b <->
    same_point (s_new_commitment a) (s_new_commitment b) /\ same_point (g_new a) (g_new b) /\
    Forall2 same_low (y_new a :: challenges_sq_packed_new a) (y_new b :: challenges_sq_packed_new b).
  Proof.
    intros V1 V2 V3 V4. unfold leftovers_to_bytes.
    rewrite (app_split (point_bytes _) (point_bytes _)) by (rewrite !point_len; reflexivity).
    rewrite (app_split (firstn 16 _) (firstn 16 _)) by (rewrite !firstn_length, !(fb_len _ _ SL); reflexivity).
    rewrite (app_split (point_bytes _) (point_bytes _)) by (rewrite !point_len; reflexivity).
    rewrite (point_inj _ _ V1 V3), (point_inj _ _ V2 V4), (halves_inj _ _ SL), (half_inj _ _ SL (y_new a) (y_new b)).
    split; [intros (H1 & H2 & H3 & H4); repeat (split; [assumption|]); constructor; assumption|].
    intros (H1 & H2 & H3). inversion H3. tauto.
  Qed.
End Points.
