(** Where the parts of the encodings are, as slices of bit strings. *)
From Coq Require Import String List Bool Arith ZArith Lia Ring Field.
From Verif Require Import Lib.AbGroup Model.FieldTrait Model.Circuits Model.Num Model.Boolean Model.Curve Model.Ecc Model.Threads Model.Params Model.Util
  Model.Rescue Model.RescueGadget Model.Opening Model.Proofs Model.Recursion
  Spec.FieldLaws Spec.CircuitSpec Spec.NumSpec Spec.BoolSpec Spec.UtilSpec Spec.CurveSpec Spec.CurveLaws Spec.EccSpec Spec.ProofSpec Spec.VerifySpec Spec.RecursionSpec
  Proofs.FieldGen Proofs.ZtoF Proofs.CircuitP Proofs.LcP Proofs.NumP Proofs.BoolP Proofs.UnpackP Proofs.ChallengeP Proofs.CurveTop Proofs.EccP Proofs.EccAddP Proofs.EccMulP
  Proofs.RescueGadgetP Proofs.RecursionP Proofs.ModeP Proofs.RecursionDeferredP Proofs.TranscriptGadgetP Proofs.EncodeP Proofs.RecursionGlue Proofs.VerifyP.
Import ListNotations.
Open Scope nat_scope. Open Scope list_scope.

Lemma F2_skipn {A B} (R : A -> B -> Prop) k : forall l l', Forall2 R l l' -> Forall2 R (skipn k l) (skipn k l').
Proof. induction k as [|k IH]; intros l l' H; [exact H|]. destruct H; [constructor|]. cbn [skipn]. apply IH. assumption. Qed.
Lemma skipn_len_app {A} (a b : list A) : skipn (length a) (a ++ b) = b.
Proof. induction a; [reflexivity|assumption]. Qed.
Lemma firstn_len_app {A} (a b : list A) : firstn (length a) (a ++ b) = a.
Proof. induction a; [reflexivity|]. cbn [length app firstn]. f_equal. assumption. Qed.

(** ** Slices of a string of numbers *)
Definition at_bits (p : Z) (bs : list bool) (o n : nat) (x : Z) : Prop :=
  o + n <= length bs /\ (bits_val (firstn n (skipn o bs)) mod p)%Z = x.
Section Slices.
  Context {F : Field} (p : Z) (v : F -> Z).
  Lemma numbers_at l1 n x l2 : forall bs, numbers p v (l1 ++ (n, x) :: l2) bs -> at_bits p bs (list_sum (map fst l1)) n (v x).
  Proof.
    unfold at_bits. induction l1 as [|[m y] l1 IH]; intros bs H; cbn [app] in H; inversion H as [|n' x' l' b bs' HL HV HN E1 E2]; subst; cbn [map fst list_sum fold_right].
    - cbn [skipn]. rewrite firstn_len_app. split; [rewrite app_length; cbn; lia|symmetry; exact HV].
    - specialize (IH _ HN). cbn [list_sum] in IH. unfold list_sum in IH. destruct IH as [I1 I2].
      rewrite app_length. split; [lia|]. rewrite skipn_app, (Nat.add_comm (length b)). replace (_ + length b - length b) with (fold_right Nat.add 0 (map fst l1)) by lia.
      rewrite skipn_all2 by lia. exact I2.
  Qed.
  Lemma sum_app a b : list_sum (map fst (a ++ b)) = list_sum (map fst a) + list_sum (map (@fst nat F) b).
  Proof. rewrite map_app. apply list_sum_app. Qed.
  (** *** where the parts of a deferred value are *)
  Record deferred_at (k : nat) (D : Deferred F) (bs : list bool) := mkDat {
    dat_len : length bs = 12 * 256 + (4 + 2 * k) * 128;
    dat_x : at_bits p bs 0 128 (v (d_x D));
    dat_y_old : at_bits p bs 128 128 (v (d_y_old D));
    dat_y_cur : at_bits p bs (128 * 2) 128 (v (d_y_cur D));
    dat_y_new : at_bits p bs (128 * 3) 128 (v (d_y_new D));
    dat_ky : at_bits p bs (128 * 4) 256 (v (d_ky_opening D));
    dat_txp : at_bits p bs (128 * 4 + 256 * 1) 256 (v (d_tx_positive_opening D));
    dat_txn : at_bits p bs (128 * 4 + 256 * 2) 256 (v (d_tx_negative_opening D));
    dat_sx : at_bits p bs (128 * 4 + 256 * 3) 256 (v (d_sx_cur_opening D));
    dat_rx : at_bits p bs (128 * 4 + 256 * 4) 256 (v (d_rx_opening D));
    dat_rxy : at_bits p bs (128 * 4 + 256 * 5) 256 (v (d_rxy_opening D));
    dat_gx : at_bits p bs (256 * 6 + (4 + k) * 128) 256 (v (d_gx_old_opening D));
    dat_new : forall i c, nth_error (d_challenges_sq_packed_new D) i = Some c ->
      at_bits p bs (4 * 128 + 6 * 256 + k * 128 + 256 + i * 128) 128 (v c);
    dat_b : forall i b, nth_error [d_b_x D; d_b_xy D; d_b_y_old D; d_b_y_cur D; d_b_y_new D] i = Some b ->
      at_bits p bs (256 * (7 + i) + (4 + 2 * k) * 128) 256 (v b);
    dat_old : numbers p v (map (pair 128) (d_challenges_sq_packed_old D)) (firstn (128 * k) (skipn (256 * 8) bs)) }.
  Lemma numbers_split l1 : forall l2 bs, numbers p v (l1 ++ l2) bs ->
    numbers p v l1 (firstn (list_sum (map fst l1)) bs) /\ numbers p v l2 (skipn (list_sum (map fst l1)) bs).
  Proof.
    induction l1 as [|[m y] l1 IH]; intros l2 bs H; cbn [app] in H.
    - split; [constructor|exact H].
    - inversion H as [|n' x' l' b bs' HL HV HN E1 E2]; subst. destruct (IH _ _ HN) as [I1 I2].
      cbn [map fst]. change (list_sum (length b :: map fst l1)) with (length b + list_sum (map fst l1)).
      rewrite firstn_app_2, skipn_app, Nat.add_comm. rewrite Nat.add_sub. rewrite skipn_all2 by lia. cbn [app].
      split; [constructor; [reflexivity|exact HV|exact I1]|exact I2].
  Qed.
  Lemma pairs_sum {B} n (l : list B) : list_sum (map fst (map (pair n) l)) = n * length l.
  Proof. induction l; cbn [map fst length]; [cbn; lia|]. change (list_sum (n :: map fst (map (pair n) l))) with (n + list_sum (map fst (map (pair n) l))). lia. Qed.
  Lemma map_nth_split {A B} (f : A -> B) l : forall i x, nth_error l i = Some x -> exists l1 l2, map f l = map f l1 ++ f x :: map f l2 /\ length l1 = i.
  Proof.
    induction l as [|a l IH]; intros [|i] x H; cbn in H; try discriminate.
    - injection H as ->. exists [], l. split; reflexivity.
    - destruct (IH i x H) as (l1 & l2 & E & L). exists (a :: l1), l2. cbn. rewrite E. split; [reflexivity|lia].
  Qed.
  Lemma deferred_slices k (D : Deferred F) bs : encodes_deferred p v k D bs -> deferred_at k D bs.
  Proof.
    intros (L1 & L2 & H).
    assert (G : forall l1 n x l2 o, deferred_layout D = l1 ++ (n, x) :: l2 -> list_sum (map fst l1) = o -> at_bits p bs o n (v x)).
    { intros l1 n x l2 o E <-. rewrite E in H. exact (numbers_at l1 n x l2 bs H). }
    pose proof (numbers_length _ _ H) as HL.
    unfold deferred_layout in *.
    set (hd10 := [(128, d_x D); (128, d_y_old D); (128, d_y_cur D); (128, d_y_new D);
     (256, d_ky_opening D); (256, d_tx_positive_opening D); (256, d_tx_negative_opening D);
     (256, d_sx_cur_opening D); (256, d_rx_opening D); (256, d_rxy_opening D)]) in *.
    set (olds := map (pair 128) (d_challenges_sq_packed_old D)) in *.
    set (news := map (pair 128) (d_challenges_sq_packed_new D)) in *.
    assert (So : list_sum (map fst olds) = 128 * k) by (unfold olds; rewrite pairs_sum, L1; reflexivity).
    assert (Sn : list_sum (map fst news) = 128 * k) by (unfold news; rewrite pairs_sum, L2; reflexivity).
    assert (Sh : list_sum (map fst hd10) = 2048) by reflexivity.
    split.
    - rewrite HL, !sum_app, So, Sn, Sh. cbn [map fst]. unfold list_sum. cbn [fold_right]. lia.
    - apply (G [] 128 _ _ _ eq_refl eq_refl).
    - apply (G (firstn 1 hd10) 128 _ (skipn 2 hd10 ++ olds ++ [(256, d_gx_old_opening D)] ++ news ++ _) _ eq_refl). reflexivity.
    - apply (G (firstn 2 hd10) 128 _ (skipn 3 hd10 ++ olds ++ [(256, d_gx_old_opening D)] ++ news ++ _) _ eq_refl). reflexivity.
    - apply (G (firstn 3 hd10) 128 _ (skipn 4 hd10 ++ olds ++ [(256, d_gx_old_opening D)] ++ news ++ _) _ eq_refl). reflexivity.
    - apply (G (firstn 4 hd10) 256 _ (skipn 5 hd10 ++ olds ++ [(256, d_gx_old_opening D)] ++ news ++ _) _ eq_refl). reflexivity.
    - apply (G (firstn 5 hd10) 256 _ (skipn 6 hd10 ++ olds ++ [(256, d_gx_old_opening D)] ++ news ++ _) _ eq_refl). reflexivity.
    - apply (G (firstn 6 hd10) 256 _ (skipn 7 hd10 ++ olds ++ [(256, d_gx_old_opening D)] ++ news ++ _) _ eq_refl). reflexivity.
    - apply (G (firstn 7 hd10) 256 _ (skipn 8 hd10 ++ olds ++ [(256, d_gx_old_opening D)] ++ news ++ _) _ eq_refl). reflexivity.
    - apply (G (firstn 8 hd10) 256 _ (skipn 9 hd10 ++ olds ++ [(256, d_gx_old_opening D)] ++ news ++ _) _ eq_refl). reflexivity.
    - apply (G (firstn 9 hd10) 256 _ (skipn 10 hd10 ++ olds ++ [(256, d_gx_old_opening D)] ++ news ++ _) _ eq_refl). reflexivity.
    - apply (G (hd10 ++ olds) 256 _ (news ++ [(256, d_b_x D); (256, d_b_xy D); (256, d_b_y_old D); (256, d_b_y_cur D); (256, d_b_y_new D)])).
      + rewrite <- app_assoc. reflexivity.
      + rewrite sum_app, Sh, So. lia.
    - intros i c Hi. destruct (map_nth_split (pair 128) _ i c Hi) as (n1 & n2 & E & HLn).
      apply (G (hd10 ++ olds ++ [(256, d_gx_old_opening D)] ++ map (pair 128) n1) 128 _ (map (pair 128) n2 ++ [(256, d_b_x D); (256, d_b_xy D); (256, d_b_y_old D); (256, d_b_y_cur D); (256, d_b_y_new D)])).
      + unfold news. rewrite E. rewrite <- !app_assoc. reflexivity.
      + rewrite !sum_app, Sh, So, pairs_sum, HLn. cbn [map fst]. unfold list_sum. cbn [fold_right]. lia.
    - intros i b Hi. set (tl5 := [(256, d_b_x D); (256, d_b_xy D); (256, d_b_y_old D); (256, d_b_y_cur D); (256, d_b_y_new D)]) in *.
      destruct (map_nth_split (pair 256) _ i b Hi) as (n1 & n2 & E & HLn). assert (E' : tl5 = map (pair 256) n1 ++ (256, b) :: map (pair 256) n2) by exact E.
      apply (G (hd10 ++ olds ++ [(256, d_gx_old_opening D)] ++ news ++ map (pair 256) n1) 256 _ (map (pair 256) n2)).
      + rewrite E'. rewrite <- !app_assoc. reflexivity.
      + rewrite !sum_app, Sh, So, Sn, pairs_sum, HLn. cbn [map fst]. unfold list_sum. cbn [fold_right]. lia.
    - destruct (numbers_split _ _ _ H) as [_ H1]. rewrite Sh in H1. destruct (numbers_split _ _ _ H1) as [H2 _]. rewrite So in H2. exact H2.
  Qed.
End Slices.

(** ** The same with exact values, for leftovers *)
Inductive pieces : list (nat * Z) -> list bool -> Prop :=
| pieces_nil : pieces [] []
| pieces_cons n z l b bs : length b = n -> bits_val b = z -> pieces l bs -> pieces ((n, z) :: l) (b ++ bs).
Lemma pieces_app l1 : forall b1 l2 b2, pieces l1 b1 -> pieces l2 b2 -> pieces (l1 ++ l2) (b1 ++ b2).
Proof.
  induction l1 as [|[n z] l1 IH]; intros b1 l2 b2 H1 H2; inversion H1; subst; [exact H2|]. cbn [app]. rewrite <- app_assoc. constructor; [reflexivity|reflexivity|].
  apply IH; assumption.
Qed.
Lemma pieces_split l1 : forall l2 bs, pieces (l1 ++ l2) bs ->
  pieces l1 (firstn (list_sum (map fst l1)) bs) /\ pieces l2 (skipn (list_sum (map fst l1)) bs).
Proof.
  induction l1 as [|[m y] l1 IH]; intros l2 bs H; cbn [app] in H.
  - split; [constructor|exact H].
  - inversion H as [|n' x' l' b bs' HL HV HN E1 E2]; subst. destruct (IH _ _ HN) as [I1 I2].
    cbn [map fst]. change (list_sum (length b :: map fst l1)) with (length b + list_sum (map fst l1)).
    rewrite firstn_app_2, skipn_app, Nat.add_comm. rewrite Nat.add_sub. rewrite skipn_all2 by lia. cbn [app].
    split; [constructor; [reflexivity|reflexivity|exact I1]|exact I2].
Qed.
Lemma pieces_length l : forall bs, pieces l bs -> length bs = list_sum (map fst l).
Proof. induction l as [|[n z] l IH]; intros bs H; inversion H as [|n' x' l' b bs' HL HV HN E1 E2]; subst; [reflexivity|]. rewrite app_length. cbn [map fst]. rewrite (IH _ HN). reflexivity. Qed.
Lemma pieces_at l1 n z l2 bs : pieces (l1 ++ (n, z) :: l2) bs ->
  list_sum (map fst l1) + n <= length bs /\ bits_val (firstn n (skipn (list_sum (map fst l1)) bs)) = z.
Proof.
  intro H. pose proof (pieces_length _ _ H) as HL. rewrite map_app, list_sum_app in HL. cbn [map fst] in HL. unfold list_sum in HL at 2. cbn [fold_right] in HL.
  destruct (pieces_split _ _ _ H) as [_ H2]. inversion H2 as [|n' x' l' b bs' HLb HV HN E1 E2]; subst. split; [lia|]. rewrite firstn_len_app. reflexivity.
Qed.
Lemma pieces_unique l : forall b1 b2, pieces l b1 -> pieces l b2 -> b1 = b2.
Proof.
  induction l as [|[n z] l IH]; intros b1 b2 H1 H2; inversion H1; inversion H2; subst; [reflexivity|]. f_equal; [|apply IH; assumption].
  apply bits_val_inj; congruence.
Qed.
(** numbers below the modulus are exact *)
Lemma numbers_pieces {F : Field} (p : Z) (v : F -> Z) l : forall bs, (forall n x, In (n, x) l -> (2 ^ Z.of_nat n <= p)%Z) -> numbers p v l bs ->
  pieces (map (fun '(n, x) => (n, v x)) l) bs.
Proof.
  induction l as [|[n x] l IH]; intros bs Hn H; inversion H as [|n' x' l' b bs' HLb HV HN E1 E2]; subst; [constructor|]. cbn [map]. constructor; [reflexivity| |].
  - rewrite HV. symmetry. apply Z.mod_small. pose proof (bits_val_range b). specialize (Hn _ _ (or_introl eq_refl)). lia.
  - apply IH; [|exact HN]. intros m y Hy. apply (Hn m y). right. exact Hy.
Qed.

Record leftovers_at (k : nat) (sx sy y gx gy : Z) (cs : list Z) (bs : list bool) := mkLat {
  lat_len : length bs = 256 * 4 + 128 * (k + 1);
  lat_sx : bits_val (firstn 256 (skipn 0 bs)) = sx;
  lat_sy : bits_val (firstn 256 (skipn (0 + 256) bs)) = sy;
  lat_y : bits_val (firstn 128 (skipn 512 bs)) = y;
  lat_gx : bits_val (firstn 256 (skipn (256 * 2 + 128) bs)) = gx;
  lat_gy : bits_val (firstn 256 (skipn (256 * 2 + 128 + 256) bs)) = gy;
  lat_c : forall i c, nth_error cs i = Some c -> bits_val (firstn 128 (skipn (256 * 4 + 128 + 128 * i) bs)) = c;
  lat_cs : pieces (map (pair 128) cs) (skipn (256 * 4 + 128) bs) }.
Lemma leftovers_slices k sx sy y gx gy cs bs : length cs = k ->
  pieces ([(256, sx); (256, sy); (128, y); (256, gx); (256, gy)] ++ map (pair 128) cs) bs -> leftovers_at k sx sy y gx gy cs bs.
Proof.
  intros HL H. set (hd5 := [(256, sx); (256, sy); (128, y); (256, gx); (256, gy)]) in *.
  assert (A : forall l1 n z l2 o, hd5 ++ map (pair 128) cs = l1 ++ (n, z) :: l2 -> list_sum (map fst l1) = o -> bits_val (firstn n (skipn o bs)) = z).
  { intros l1 n z l2 o E <-. rewrite E in H. exact (proj2 (pieces_at _ _ _ _ _ H)). }
  split.
  - rewrite (pieces_length _ _ H), map_app, list_sum_app, pairs_sum, HL. cbn [hd5 map fst]. unfold list_sum. cbn [fold_right]. lia.
  - apply (A [] 256 sx (skipn 1 hd5 ++ map (pair 128) cs)); reflexivity.
  - apply (A (firstn 1 hd5) 256 sy (skipn 2 hd5 ++ map (pair 128) cs)); reflexivity.
  - apply (A (firstn 2 hd5) 128 y (skipn 3 hd5 ++ map (pair 128) cs)); reflexivity.
  - apply (A (firstn 3 hd5) 256 gx (skipn 4 hd5 ++ map (pair 128) cs)); reflexivity.
  - apply (A (firstn 4 hd5) 256 gy (map (pair 128) cs)); reflexivity.
  - intros i c Hi. destruct (map_nth_split (pair 128) _ i c Hi) as (n1 & n2 & E & HLn).
    apply (A (hd5 ++ map (pair 128) n1) 128 c (map (pair 128) n2)); [rewrite E, <- app_assoc; reflexivity|].
    rewrite map_app, list_sum_app, pairs_sum, HLn. cbn [hd5 map fst]. unfold list_sum. cbn [fold_right]. lia.
  - destruct (pieces_split _ _ _ H) as [_ H1]. exact H1.
Qed.
Section LeftoversBits.
  Context {C : Curve} {q vb r vs} (CL : CurveLaws C q vb r vs).
  Let FL : FieldLaws (Base C) q vb := cl_base _ _ _ _ _ CL.
  Let SL : FieldLaws (Scalar C) r vs := cl_scalar _ _ _ _ _ CL.
  Lemma pieces_full {F : Field} {p v} (L : FieldLaws F p v) (x : F) : pieces [(256, v x)] (bytes_bits (f_to_bytes x)).
  Proof.
    rewrite <- (app_nil_r (bytes_bits _)). destruct (fe_bits_val L x) as [H1 H2]. constructor; [exact H1|exact H2|constructor].
  Qed.
  Lemma pieces_half {F : Field} {p v} (L : FieldLaws F p v) (x : F) : small x -> pieces [(128, v x)] (bytes_bits (firstn 16 (f_to_bytes x))).
  Proof.
    intro Hs. rewrite <- (app_nil_r (bytes_bits _)). pose proof (half_len _ _ L x) as HL. pose proof (half_byte _ _ L x) as HB. pose proof (half_val _ _ L x) as HV. cbv beta in *.
    constructor; [unfold bytes_bits; rewrite bytes_bits_length, HL; reflexivity| |constructor].
    unfold bytes_bits. rewrite bytes_bits_val by exact HB. rewrite HV. unfold small in Hs. destruct (fl_to_bytes _ _ _ L x) as (_ & _ & E). rewrite E in *.
    apply Z.mod_small. pose proof (ol_range _ _ _ (fl_ops _ _ _ L) x). lia.
  Qed.
  Lemma pieces_point (P : C) A : CurveSpec.represents P A -> pieces [(256, vb (abscissa A)); (256, vb (ordinate A))] (bytes_bits (point_bytes P)).
  Proof.
    intro H. unfold point_bytes. rewrite (cl_get_xy _ _ _ _ _ CL _ _ H).
    destruct A as [[x y]|]; rewrite bytes_bits_app; apply (pieces_app [_]); apply (pieces_full FL).
  Qed.
  Lemma pieces_halves (cs : list (Scalar C)) : Forall small cs -> pieces (map (pair 128) (map vs cs)) (bytes_bits (flat_map (fun c => firstn 16 (f_to_bytes c)) cs)).
  Proof.
    induction 1 as [|c cs Hc _ IH]; [constructor|]. cbn [map flat_map]. rewrite bytes_bits_app. apply (pieces_app [_]); [apply (pieces_half SL c Hc)|exact IH].
  Qed.
  Lemma leftovers_pieces (L : Leftovers C) A B : CurveSpec.represents (s_new_commitment L) A -> CurveSpec.represents (g_new L) B ->
    small (y_new L) -> Forall small (challenges_sq_packed_new L) ->
    leftovers_at (length (challenges_sq_packed_new L)) (vb (abscissa A)) (vb (ordinate A)) (vs (y_new L)) (vb (abscissa B)) (vb (ordinate B))
      (map vs (challenges_sq_packed_new L)) (bytes_bits (leftovers_to_bytes L)).
  Proof.
    intros HA HB Hy Hc. apply leftovers_slices; [apply map_length|]. unfold leftovers_to_bytes. rewrite !bytes_bits_app.
    apply (pieces_app [_; _]); [apply (pieces_point _ _ HA)|]. apply (pieces_app [_]); [apply (pieces_half SL _ Hy)|].
    apply (pieces_app [_; _]); [apply (pieces_point _ _ HB)|]. apply pieces_halves, Hc.
  Qed.
End LeftoversBits.
