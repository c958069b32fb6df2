(** [verify_deferred] as a circuit. *)
From Coq Require Import String List Bool Arith ZArith Lia Ring Field.
From Verif Require Import Model.FieldTrait Model.Circuits Model.Num Model.Boolean Model.Util Model.Params Model.Proofs Model.Recursion
  Spec.FieldLaws Spec.CircuitSpec Spec.NumSpec Spec.BoolSpec Spec.UtilSpec Spec.CurveSpec Spec.SystemSpec Spec.ProofSpec Spec.RecursionSpec
  Proofs.FieldGen Proofs.ZtoF Proofs.CircuitP Proofs.LcP Proofs.NumP Proofs.BoolP Proofs.UnpackP Proofs.ChallengeP Proofs.SumP
  Proofs.ProverLemmas Proofs.DeferredP Proofs.DeferredTop Proofs.RecursionP Proofs.ModeP.
Import ListNotations.
Open Scope nat_scope.
Open Scope list_scope.

Lemma F2_map_l {A B X} (R : B -> X -> Prop) (f : A -> B) l : forall cs, Forall2 R (map f l) cs -> Forall2 (fun a c => R (f a) c) l cs.
Proof. induction l as [|a l IH]; intros cs H; inversion H; subst; constructor; auto. Qed.
Lemma Forall2_weaken {A B} (R S : A -> B -> Prop) l l' : (forall a b, R a b -> S a b) -> Forall2 R l l' -> Forall2 S l l'.
Proof. intros H. induction 1; constructor; auto. Qed.
Section Numbers.
  Context {F : Field} {p : Z} {v : F -> Z} (FL : FieldLaws F p v).
  Let OL : OpsLaws F p v := fl_ops _ _ _ FL.
  Lemma app_inj {A} (a b c d : list A) : length a = length c -> a ++ b = c ++ d -> a = c /\ b = d.
  Proof.
    revert c. induction a as [|x a IH]; intros [|y c] HL H; try discriminate HL; [split; [reflexivity|exact H]|].
    injection HL as HL. injection H as -> H. destruct (IH c HL H) as [-> ->]. split; reflexivity.
  Qed.
  Lemma numbers_inj l : forall l' bs, map fst l = map fst l' -> numbers p v l bs -> numbers p v l' bs -> l = l'.
  Proof.
    induction l as [|[n x] l IH]; intros [|[n' x'] l'] bs HL H1 H2; try discriminate HL; [reflexivity|].
    cbn [map fst] in HL. injection HL as <- HL. inversion H1 as [|a1 a2 a3 b1 r1 L1 V1 N1]; subst. inversion H2 as [|a1 a2 a3 b2 r2 L2 V2 N2 Q1 Q2]; subst.
    destruct (app_inj _ _ _ _ L2 Q2) as [-> ->]. rewrite <- (IH l' r1 HL N1 N2). f_equal. f_equal. apply (ol_inj _ _ _ OL). congruence.
  Qed.
  Lemma map_pair_len {A B} (n : A) (l l' : list B) : length l = length l' -> map fst (map (pair n) l) = map fst (map (pair n) l').
  Proof. revert l'. induction l as [|x l IH]; intros [|y l'] H; try discriminate H; [reflexivity|]. cbn [map fst]. f_equal. apply IH. injection H as H. exact H. Qed.
  Lemma map_pair_inj {A B} (n : A) (l l' : list B) : map (pair n) l = map (pair n) l' -> l = l'.
  Proof. revert l'. induction l as [|x l IH]; intros [|y l'] H; try discriminate H; [reflexivity|]. cbn [map] in H. injection H as -> H. f_equal. apply IH, H. Qed.
  Lemma encodes_inj k D D' bs : encodes_deferred p v k D bs -> encodes_deferred p v k D' bs -> D = D'.
  Proof.
    intros (L1 & L2 & H) (L1' & L2' & H').
    assert (E : deferred_layout D = deferred_layout D').
    { apply (numbers_inj _ _ bs); [|exact H|exact H']. unfold deferred_layout. rewrite !map_app.
      rewrite (map_pair_len 128 (d_challenges_sq_packed_old D) (d_challenges_sq_packed_old D')) by congruence. rewrite (map_pair_len 128 (d_challenges_sq_packed_new D) (d_challenges_sq_packed_new D')) by congruence. reflexivity. }
    clear H H'. destruct D, D'. unfold deferred_layout in E. cbn in E, L1, L2, L1', L2'.
    injection E as ? ? ? ? ? ? ? ? ? ? E.
    apply app_inj in E; [|rewrite !map_length; congruence]. destruct E as [E1 E]. apply map_pair_inj in E1.
    injection E as ? E. apply app_inj in E; [|rewrite !map_length; congruence]. destruct E as [E2 E]. apply map_pair_inj in E2.
    injection E as ? ? ? ? ?. subst. reflexivity.
  Qed.
  Lemma numbers_length l bs : numbers p v l bs -> length bs = list_sum (map fst l).
  Proof. induction 1 as [|n x l b bs L1 _ _ IH]; [reflexivity|]. rewrite app_length. cbn [map fst list_sum fold_right]. rewrite IH, L1. reflexivity. Qed.
  Lemma numbers_app l1 b1 l2 b2 : numbers p v l1 b1 -> numbers p v l2 b2 -> numbers p v (l1 ++ l2) (b1 ++ b2).
  Proof. induction 1; intro H2; [exact H2|]. rewrite <- app_assoc. cbn [app]. constructor; auto. Qed.
  Lemma sum_pairs {B} n (l : list B) : list_sum (map fst (map (pair n) l)) = n * length l.
  Proof. induction l as [|x l IH]; [cbn; lia|]. cbn [map fst list_sum fold_right length]. change (fold_right Init.Nat.add 0) with list_sum. rewrite IH. lia. Qed.
  Lemma encodes_length k D bs : encodes_deferred p v k D bs -> length bs = deferred_bits k.
  Proof.
    intros (L1 & L2 & H). rewrite (numbers_length _ _ H). unfold deferred_layout, deferred_bits. rewrite !map_app, !list_sum_app, !sum_pairs, L1, L2.
    cbn [map fst list_sum fold_right]. lia.
  Qed.
End Numbers.

Section Deferred.
  Context {F : Field} {p : Z} {v : F -> Z} (FL : FieldLaws F p v) (one : Var).
  Let OL : OpsLaws F p v := fl_ops _ _ _ FL.
  Add Field Ff : (ffield OL).
  Variable w : assignment F.
  Hypothesis w_one : w one = fone.
  Variable m : bool.
  Notation JJ := (JJ w m). Notation RA := (RA w m). Notation RB := (RB w m). Notation RC := (RC w m). Notation need := (need m).

  Lemma J_cut {B} len bits bs (k : _ -> CS F B) Q : Forall2 RB bits bs -> need (len <= length bs) ->
    (forall here rest b bs', bs = b ++ bs' -> length b = len -> Forall2 RB here b -> Forall2 RB rest bs' -> JJ (k (here, rest)) Q) ->
    JJ (bind (cut len bits) k) Q.
  Proof.
    intros H HN HK. unfold cut. pose proof (UnpackP.Forall2_length _ _ _ H) as HL. apply J_unwrap.
    - intro E. specialize (HN E). rewrite (proj2 (Nat.leb_le _ _)) by lia. discriminate.
    - intros [here rest] E. destruct (len <=? length bits) eqn:EL; [|discriminate E]. apply Nat.leb_le in EL. injection E as <- <-.
      destruct (F2_split _ len _ _ H) as [H1 H2]. apply (HK _ _ (firstn len bs) (skipn len bs)); auto.
      + symmetry. apply firstn_skipn.
      + rewrite firstn_length. lia.
  Qed.
  Lemma J_cut_scalar {B} s len bits bs n0 (k : _ -> CS F B) Q : Forall2 RB bits bs -> need (length bs = len + n0) ->
    (forall n rest b bs', bs = b ++ bs' -> length b = len -> need (length bs' = n0) -> RA n (fz (bits_val b)) -> Forall2 RB rest bs' -> JJ (k (n, rest)) Q) ->
    JJ (bind (cut_scalar s len bits) k) Q.
  Proof.
    intros H HN HK.
    eapply J_bind with (Q1 := fun '(n, rest) => exists b bs', bs = b ++ bs' /\ length b = len /\ RA n (fz (bits_val b)) /\ Forall2 RB rest bs').
    - unfold cut_scalar. apply (J_cut len bits bs); [exact H|intro E; specialize (HN E); lia|].
      intros here rest b bs' E L1 H1 H2. eapply J_nsb; [apply (J_obtain FL w m _ _ H1)|]. intros n Hn. apply J_ret. exists b, bs'. auto.
    - intros [n rest] (b & bs' & E & L1 & H1 & H2). apply (HK n rest b bs' E L1); auto.
      intro X. specialize (HN X). rewrite E, app_length, L1 in HN. lia.
  Qed.
  Lemma J_cut_challenges k : forall bits bs n0, Forall2 RB bits bs -> need (length bs = 128 * k + n0) ->
    JJ (cut_challenges one k bits) (fun '(ns, rest) => exists bss bs' (packed : list F), bs = concat bss ++ bs' /\ need (length bs' = n0) /\
      length packed = k /\ numbers p v (map (pair 128) packed) (concat bss) /\
      Forall2 RA ns (map get_challenge_scalar packed) /\ Forall2 RB rest bs').
  Proof.
    induction k as [|k IH]; intros bits bs n0 H HN.
    - apply J_ret. exists [], bs, []. split; [reflexivity|]. split; [intro E; rewrite (HN E); reflexivity|]. split; [reflexivity|]. split; [constructor|]. split; [constructor|exact H].
    - cbn [cut_challenges]. apply (J_cut 128 bits bs); [exact H|intro E; specialize (HN E); lia|].
      intros here rest b bs' E L1 H1 H2. pose proof (UnpackP.Forall2_length _ _ _ H1) as L2.
      eapply J_nsb; [apply (J_challenge_scalar FL one w w_one m _ _ H1); intro X; congruence|]. intros n Hn.
      eapply J_bind; [apply (IH rest bs' n0 H2); intro X; specialize (HN X); rewrite E, app_length, L1 in HN; lia|].
      intros [ns rest'] (bss & bs'' & packed & E' & N1 & N2 & N3 & N4 & N5). apply J_ret.
      exists (b :: bss), bs'', (fz (bits_val b) :: packed). cbn [concat map].
      assert (V : v (fz (bits_val b)) = (bits_val b mod p)%Z) by apply (v_fz OL).
      split; [rewrite E, E', app_assoc; reflexivity|]. split; [exact N1|]. split; [cbn [length]; lia|].
      split; [constructor; auto|]. split; [|exact N5]. constructor; [|exact N4].
      rewrite <- (bits_scalar_native FL (fz (bits_val b)) b L1); [exact Hn|].
      rewrite V. pose proof (bits_val_range b) as R. rewrite L1 in R. change (Z.of_nat 128) with 128%Z in R. destruct (fl_size _ _ _ FL) as [S _].
      assert (2 ^ 128 < 2 ^ 254)%Z by reflexivity. rewrite (Z.mod_small _ p) by lia. apply Z.mod_small. exact R.
  Qed.

  Definition gd_is (d : GDeferred F) (D : Deferred F) : Prop :=
    RA (gd_x d) (d_x D) /\ RA (gd_y_old d) (d_y_old D) /\ RA (gd_y_cur d) (d_y_cur D) /\ RA (gd_y_new d) (d_y_new D) /\
    RA (gd_ky d) (d_ky_opening D) /\ RA (gd_tx_positive d) (d_tx_positive_opening D) /\ RA (gd_tx_negative d) (d_tx_negative_opening D) /\
    RA (gd_sx_cur d) (d_sx_cur_opening D) /\ RA (gd_rx d) (d_rx_opening D) /\ RA (gd_rxy d) (d_rxy_opening D) /\
    Forall2 RA (gd_sq_old d) (map get_challenge_scalar (d_challenges_sq_packed_old D)) /\ RA (gd_gx_old d) (d_gx_old_opening D) /\
    Forall2 RA (gd_sq_new d) (map get_challenge_scalar (d_challenges_sq_packed_new D)) /\
    RA (gd_b_x d) (d_b_x D) /\ RA (gd_b_xy d) (d_b_xy D) /\ RA (gd_b_y_old d) (d_b_y_old D) /\ RA (gd_b_y_cur d) (d_b_y_cur D) /\ RA (gd_b_y_new d) (d_b_y_new D).

  Ltac jcs H HN :=
    eapply (J_cut_scalar _ _ _ _ _ _ _ H HN);
    let n := fresh "n" in let rest := fresh "rest" in let b := fresh "b" in let bs := fresh "bs" in
    let E := fresh "E" in let L := fresh "L" in let N := fresh "N" in let V := fresh "V" in let R := fresh "R" in
    intros n rest b bs E L N V R; cbv beta iota.
  Lemma J_unpack k bits bs : Forall2 RB bits bs -> need (length bs = deferred_bits k) ->
    JJ (unpack_deferred one k bits) (fun d => exists D, encodes_deferred p v k D bs /\ gd_is d D).
  Proof.
    intros H HN. unfold unpack_deferred, deferred_bits in *.
    assert (HN0 : need (length bs = 128 + (128 + (128 + (128 + (256 + (256 + (256 + (256 + (256 + (256 + (128 * k + (256 + (128 * k + (256 + (256 + (256 + (256 + (256 + 0))))))))))))))))))) by (intro E; specialize (HN E); lia).
    clear HN.
    jcs H HN0. jcs R N. jcs R0 N0. jcs R1 N1. jcs R2 N2. jcs R3 N3. jcs R4 N4. jcs R5 N5. jcs R6 N6. jcs R7 N7.
    eapply J_bind; [exact (J_cut_challenges k _ _ _ R8 N8)|]. intros [ns rest'] (bss & bs' & packed & EE & NN & LL & VV & AA & RR). cbv beta iota.
    jcs RR NN. eapply J_bind; [exact (J_cut_challenges k _ _ _ R9 N9)|]. intros [ns' rest''] (bss' & bs'' & packed' & EE' & NN' & LL' & VV' & AA' & RR'). cbv beta iota.
    jcs RR' NN'. jcs R10 N10. jcs R11 N11. jcs R12 N12. jcs R13 N13.
    apply J_assert. { intro X. rewrite (UnpackP.Forall2_length _ _ _ R14), (N14 X). reflexivity. }
    intro Z0. apply Nat.eqb_eq in Z0. apply J_ret.
    exists (mkDeferred (fz (bits_val b)) (fz (bits_val b0)) (fz (bits_val b1)) (fz (bits_val b2)) (fz (bits_val b3)) (fz (bits_val b4)) (fz (bits_val b5))
      (fz (bits_val b6)) (fz (bits_val b7)) (fz (bits_val b8)) packed (fz (bits_val b9)) packed' (fz (bits_val b10)) (fz (bits_val b11)) (fz (bits_val b12)) (fz (bits_val b13)) (fz (bits_val b14))).
    split.
    - split; [exact LL|]. split; [exact LL'|]. unfold deferred_layout. cbn [d_x d_y_old d_y_cur d_y_new d_ky_opening d_tx_positive_opening d_tx_negative_opening d_sx_cur_opening d_rx_opening d_rxy_opening d_challenges_sq_packed_old d_gx_old_opening d_challenges_sq_packed_new d_b_x d_b_xy d_b_y_old d_b_y_cur d_b_y_new].
      pose proof (UnpackP.Forall2_length _ _ _ R14) as Z1. assert (bs15 = []) as -> by (destruct bs15; [reflexivity|cbn [length] in *; lia]).
      cbn [app]. subst.
      repeat (constructor; [assumption|apply (v_fz OL)|]). apply numbers_app; [exact VV|].
      constructor; [assumption|apply (v_fz OL)|]. apply numbers_app; [exact VV'|].
      repeat (constructor; [assumption|apply (v_fz OL)|]). constructor.
    - unfold gd_is. cbn [gd_x gd_y_old gd_y_cur gd_y_new gd_ky gd_tx_positive gd_tx_negative gd_sx_cur gd_rx gd_rxy gd_sq_old gd_gx_old gd_sq_new gd_b_x gd_b_xy gd_b_y_old gd_b_y_cur gd_b_y_new d_x d_y_old d_y_cur d_y_new d_ky_opening d_tx_positive_opening d_tx_negative_opening d_sx_cur_opening d_rx_opening d_rxy_opening d_challenges_sq_packed_old d_gx_old_opening d_challenges_sq_packed_new d_b_x d_b_xy d_b_y_old d_b_y_cur d_b_y_new].
      tauto.
  Qed.

  Lemma J_square_times n : forall x xv, RA x xv -> JJ (square_times x n) (fun o => RA o (fpow xv (2 ^ n))).
  Proof.
    intros x xv Hx. unfold square_times.
    eapply J_weaken.
    - apply (J_foldM w m _ (fun rest o => exists i, RA o (fpow xv (2 ^ i)) /\ i + length rest = n)).
      + intros a l b (i & Hb & Hi). apply J_ns. eapply J_weaken; [apply (J_mul FL one w m _ _ _ _ Hb Hb)|]. cbv beta. intros o Ho.
        exists (S i). cbn [length] in Hi. split; [|lia]. replace (2 ^ S i) with (2 ^ i + 2 ^ i) by (cbn [Nat.pow]; lia). rewrite (fpow_add OL). exact Ho.
      + exists 0. cbn [Nat.pow]. rewrite (fpow_1 OL), seq_length. split; [exact Hx|reflexivity].
    - cbv beta. intros o (i & Ho & Hi). cbn [length] in Hi. replace n with i by lia. exact Ho.
  Qed.
  Lemma J_thing x xv k : RA x xv -> JJ (g_compute_thing one x k) (fun c => RC c (fsum (fun i => fpow xv (S i)) (2 ^ k))).
  Proof.
    intro Hx. rewrite <- (compute_thing_eq FL). unfold g_compute_thing, compute_thing.
    eapply J_bind.
    - apply (J_foldM w m _ (fun rest '(acc, cur) => exists a c, RC acc a /\ RA cur c /\
        fold_left (fun '(acc, cur) (_ : nat) => let tmp := fmul acc cur in (fadd acc tmp, fsquare cur)) rest (a, c)
        = fold_left (fun '(acc, cur) (_ : nat) => let tmp := fmul acc cur in (fadd acc tmp, fsquare cur)) (seq 0 k) (xv, xv))).
      + intros i l [acc cur] (a & c & Ha & Hc & E). cbv beta iota.
        eapply J_nsb; [apply (J_cmul FL one w w_one m _ _ _ _ Ha (RC_from FL w m _ _ Hc))|]. intros t Ht. cbv beta.
        eapply J_nsb; [apply (J_mul FL one w m _ _ _ _ Hc Hc)|]. intros c2 Hc2. apply J_ret. cbv beta iota.
        exists (fadd a (fmul a c)), (fmul c c). split; [apply (RC_add_num FL); assumption|]. split; [exact Hc2|].
        rewrite <- E. cbn [fold_left]. cbv zeta. rewrite (fsquare_mul OL). reflexivity.
      + exists xv, xv. split; [apply (RC_from FL), Hx|]. split; [exact Hx|reflexivity].
    - intros [acc cur] (a & c & Ha & Hc & E). apply J_ret. cbn [fold_left] in E. rewrite <- E. exact Ha.
  Qed.

  Lemma check_algebra n (D : Deferred F) xi yi : 1 <= n -> fmul (d_x D) xi = fone -> fmul (d_y_cur D) yi = fone ->
    let x := d_x D in let y := d_y_cur D in
    let xin := fpow xi n in let yn := fpow y n in let xyin := fpow (fmul xi yi) n in
    let xy31 := fmul (fmul xyin (fmul xyin xyin)) (fmul x y) in
    let x31 := fmul (fmul (fmul xin xin) xin) x in
    let s1 := fsum (fun i => fpow (fmul x y) (S i)) n in let s2 := fsum (fun i => fpow (fmul x yi) (S i)) n in
    let thing := fmul (fadd s1 s2) (fpow x n) in
    let lhs := fsub (fmul (fsub (fadd (fmul (fmul (d_sx_cur_opening D) xin) yn) (fmul (d_rxy_opening D) xy31)) thing) (fmul (d_rx_opening D) x31))
      (fmul (d_ky_opening D) yn) in
    let rhs := fadd (fmul (d_tx_positive_opening D) x) (fmul (d_tx_negative_opening D) (fpow xin 4)) in
    fsub lhs rhs = fzero <-> deferred_equation n D xi yi.
  Proof.
    intros Hn Hx Hy. cbv zeta. unfold deferred_equation. cbv zeta.
    assert (E1 : fmul (fmul (fmul (fpow xi n) (fpow xi n)) (fpow xi n)) (d_x D) = fpow xi (3 * n - 1)).
    { rewrite <- !(fpow_add OL). replace (n + n + n) with (S (3 * n - 1)) by lia. cbn [fpow]. transitivity (fmul (fmul (d_x D) xi) (fpow xi (3 * n - 1))); [ring|]. rewrite Hx. ring. }
    assert (E2 : fmul (fmul (fpow (fmul xi yi) n) (fmul (fpow (fmul xi yi) n) (fpow (fmul xi yi) n))) (fmul (d_x D) (d_y_cur D)) = fpow (fmul xi yi) (3 * n - 1)).
    { rewrite <- !(fpow_add OL). replace (n + (n + n)) with (S (3 * n - 1)) by lia. cbn [fpow].
      transitivity (fmul (fmul (fmul (d_x D) xi) (fmul (d_y_cur D) yi)) (fpow (fmul xi yi) (3 * n - 1))); [ring|]. rewrite Hx, Hy. ring. }
    assert (E4 : fpow (fpow xi n) 4 = fpow xi (4 * n)). { rewrite <- (fpow_mul OL). f_equal. lia. }
    rewrite E1, E2, E4. unfold sum_q. rewrite (fsum_add OL).
    set (X3 := fpow xi (3 * n - 1)). set (XY := fpow (fmul xi yi) (3 * n - 1)). set (S1 := fsum _ n). set (S2 := fsum _ n). set (X4 := fpow xi (4 * n)).
    set (XI := fpow xi n). set (Y := fpow (d_y_cur D) n). set (X := fpow (d_x D) n).
    generalize (d_rx_opening D) (d_rxy_opening D) (d_sx_cur_opening D) (d_ky_opening D) (d_tx_positive_opening D) (d_tx_negative_opening D).
    intros a b c d e f. clearbody X3 XY S1 S2 X4 XI Y X.
    match goal with |- fsub ?l ?r = fzero <-> ?l' = ?r' => assert (l = l') as -> by ring end. apply (fsub_zero OL).
  Qed.

  Ltac jmul H1 H2 := eapply J_nsb; [exact (J_mul FL one w m _ _ _ _ H1 H2)|]; cbv beta.
  Lemma J_check k d D : gd_is d D -> need (2 <= k /\ d_x D <> fzero /\ d_y_cur D <> fzero) ->
    need (forall xi yi, fmul (d_x D) xi = fone -> fmul (d_y_cur D) yi = fone -> deferred_equation (2 ^ (k - 2)) D xi yi) ->
    JJ (check_circuit one k d) (fun xy => RA xy (fmul (d_x D) (d_y_cur D)) /\ 2 <= k /\
      exists xi yi, fmul (d_x D) xi = fone /\ fmul (d_y_cur D) yi = fone /\ deferred_equation (2 ^ (k - 2)) D xi yi).
  Proof.
    intros (Hx & Hyo & Hy & Hyn & Hky & Htp & Htn & Hsx & Hrx & Hrxy & _) HN HE. unfold check_circuit.
    eapply J_nsb; [apply (J_invert FL one w w_one m _ _ Hx); intro E; apply (HN E)|]. cbv beta. intros xinv (xi & Hxi & Exi).
    eapply J_nsb; [apply (J_invert FL one w w_one m _ _ Hy); intro E; apply (HN E)|]. cbv beta. intros yinv (yi & Hyi & Eyi).
    jmul Hxi Hyi. intros xyinv Hxyi. jmul Hx Hy. intros xy Hxy. jmul Hx Hyi. intros x_invy Hxiy.
    unfold usize_sub. apply J_unwrap. { intro E. rewrite (proj2 (Nat.leb_le _ _)) by apply (HN E). discriminate. }
    intros nk Enk. destruct (2 <=? k) eqn:Ek; [|discriminate Enk]. apply Nat.leb_le in Ek. assert (Hnk : nk = k - 2) by congruence. clear Enk. subst nk.
    set (nk := k - 2) in *. set (n := 2 ^ nk) in *.
    eapply J_bind; [apply (J_square_times nk _ _ Hxi)|]. intros xinvn Hxin. fold n in Hxin.
    eapply J_bind; [apply (J_square_times 2 _ _ Hxin)|]. intros xinvd Hxid. change (2 ^ 2) with 4 in Hxid.
    eapply J_bind; [apply (J_square_times nk _ _ Hy)|]. intros yn Hyn'. fold n in Hyn'.
    eapply J_bind; [apply (J_square_times nk _ _ Hx)|]. intros xn Hxn. fold n in Hxn.
    eapply J_bind; [apply (J_square_times nk _ _ Hxyi)|]. intros xyi Hxyin. fold n in Hxyin.
    jmul Hxyin Hxyin. intros t1 Ht1. jmul Hxyin Ht1. intros t2 Ht2. jmul Ht2 Hxy. intros xyinvn31 Hxy31.
    jmul Hxin Hxin. intros t3 Ht3. jmul Ht3 Hxin. intros t4 Ht4. jmul Ht4 Hx. intros xinvn31 Hx31.
    jmul Htp Hx. intros r1 Hr1. jmul Htn Hxid. intros r2 Hr2. cbv zeta.
    jmul Hsx Hxin. intros l1 Hl1. jmul Hl1 Hyn'. intros l2 Hl2.
    eapply J_nsb; [apply (J_thing _ _ nk Hxy)|]. intros th1 Hth1. fold n in Hth1.
    eapply J_nsb; [apply (J_thing _ _ nk Hxiy)|]. intros th2 Hth2. fold n in Hth2.
    eapply J_nsb; [apply (J_cmul FL one w w_one m _ _ _ _ (RC_add FL w m _ _ _ _ Hth1 Hth2) (RC_from FL w m _ _ Hxn))|]. intros th Hth.
    jmul Hrxy Hxy31. intros l3 Hl3.
    pose proof (RC_sub_num FL w m _ _ _ _ (RC_add_num FL w m _ _ _ _ (RC_from FL w m _ _ Hl2) Hl3) Hth) as HL.
    jmul Hrx Hx31. intros l4 Hl4.
    eapply J_nsb; [apply (J_cmul FL one w w_one m _ _ _ _ HL (RC_from FL w m _ _ Hl4))|]. intros l5 Hl5.
    jmul Hky Hyn'. intros ky' Hky'. cbv zeta.
    pose proof (RC_sub_num FL w m _ _ _ _ (RC_from FL w m _ _ Hl5) Hky') as HLL.
    pose proof (RC_add_num FL w m _ _ _ _ (RC_from FL w m _ _ Hr1) Hr2) as HR.
    assert (Hn1 : 1 <= n) by (unfold n; pose proof (Nat.pow_nonzero 2 nk); lia).
    pose proof (check_algebra n D xi yi Hn1 Exi Eyi) as AL. cbv zeta in AL.
    eapply J_enforce.
    - rewrite (lc_val_sub_lc OL), (RC_lc FL one w w_one m _ _ HLL), (RC_lc FL one w w_one m _ _ HR). reflexivity.
    - intro E. apply (proj2 AL). exact (HE E xi yi Exi Eyi).
    - intro E. apply J_ret. split; [exact Hxy|]. split; [exact Ek|]. exists xi, yi. split; [exact Exi|]. split; [exact Eyi|]. apply (proj1 AL). exact E.
  Qed.

  Definition roots (sq cs : list F) : Prop := Forall2 (fun x c => fmul c c = x /\ need (f_sqrt x = Some c)) sq cs.
  Lemma J_roots sq xs : Forall2 RA sq xs -> need (Forall (fun x => f_sqrt x <> None) xs /\ Forall (fun x => x <> fzero) xs) ->
    JJ (roots_and_inverses one sq) (fun '(cs, cis) => exists rs is_, roots xs rs /\ inverses rs is_ /\ Forall2 RA cs rs /\ Forall2 RA cis is_).
  Proof.
    intros H HN. unfold roots_and_inverses.
    eapply J_bind.
    { apply (J_mapM w m RA (fun x c => fmul c c = x /\ need (f_sqrt x = Some c)) RA _ _ xs); [|exact H].
      intros a x Hi Ha. apply J_ns, (J_sqrt FL one w m _ _ Ha). intro E. destruct (HN E) as [K _]. rewrite Forall_forall in K. exact (K x Hi). }
    cbv beta. intros cs (rs & Hrs & Hcs).
    eapply J_bind.
    { apply (J_mapM w m RA (fun x c => fmul x c = fone) RA _ _ rs); [|exact Hcs].
      intros a x Hi Ha. apply J_ns. eapply J_weaken; [apply (J_invert FL one w w_one m _ _ Ha)|].
      - intros E Z0. destruct (HN E) as [_ K]. rewrite Forall_forall in K.
        assert (exists y, In y xs /\ fmul x x = y) as (y & Hy & Ey).
        { clear - Hrs Hi. induction Hrs as [|y c xs rs [E _] _ IH]; [destruct Hi|]. destruct Hi as [->|Hi]; [exists y; split; [left; reflexivity|exact E]|].
          destruct (IH Hi) as (z & Hz & Ez). exists z. split; [right; exact Hz|exact Ez]. }
        apply (K y Hy). rewrite <- Ey, Z0. ring.
      - cbv beta. intros o (y & H1 & H2). exists y. auto. }
    cbv beta. intros cis (is_ & His & Hcis). apply J_ret. exists rs, is_. auto.
  Qed.
  Lemma J_enforce_value {B} c b y n (k : unit -> CS F B) Q : RC c b -> RA n y -> need (b = y) -> (b = y -> JJ (k tt) Q) -> JJ (bind (enforce_value one c n) k) Q.
  Proof.
    intros Hc Hn HN HK. unfold enforce_value. eapply J_enforce.
    - rewrite (lc_val_sub_v OL), (RC_lc FL one w w_one m _ _ Hc). destruct Hn as [Hn _]. unfold num_val in Hn. rewrite Hn. reflexivity.
    - intro E. apply (fsub_zero OL). exact (HN E).
    - intro E. apply HK. apply (proj1 (fsub_zero OL _ _)). exact E.
  Qed.

  (** what the constraints say *)
  Definition sq_of (D : list F) : list F := map get_challenge_scalar D.
  Definition holds (k : nat) (D : Deferred F) : Prop :=
    2 <= k /\
    (exists xi yi, fmul (d_x D) xi = fone /\ fmul (d_y_cur D) yi = fone /\ deferred_equation (2 ^ (k - 2)) D xi yi) /\
    (exists co coi, Forall2 (fun x c => fmul c c = x) (sq_of (d_challenges_sq_packed_old D)) co /\ inverses co coi /\
      compute_b (d_x D) co coi = Some (d_gx_old_opening D)) /\
    (exists cn cni, Forall2 (fun x c => fmul c c = x) (sq_of (d_challenges_sq_packed_new D)) cn /\ inverses cn cni /\
      compute_b (d_x D) cn cni = Some (d_b_x D) /\ compute_b (fmul (d_x D) (d_y_cur D)) cn cni = Some (d_b_xy D) /\
      compute_b (d_y_old D) cn cni = Some (d_b_y_old D) /\ compute_b (d_y_cur D) cn cni = Some (d_b_y_cur D) /\
      compute_b (d_y_new D) cn cni = Some (d_b_y_new D)).
  Lemma roots_squares sq cs : roots sq cs -> Forall2 (fun x c => fmul c c = x) sq cs.
  Proof. induction 1 as [|x c sq cs [H _] _ IH]; constructor; auto. Qed.
  Lemma roots_rooted packed cs : m = true -> roots (sq_of packed) cs -> rooted packed cs.
  Proof.
    intros E H. apply F2_map_l in H. eapply Forall2_weaken; [|exact H]. intros pk c [_ K]. exact (K E).
  Qed.

  Ltac jb Hx Hc Hci HL := eapply J_nsb; [exact (J_compute_b FL one w w_one m _ _ _ _ _ _ Hx Hc Hci HL)|]; cbv beta.
  Theorem J_verify_deferred k bits bs : Forall2 RB bits bs ->
    need (k <= 64 /\ exists D, encodes_deferred p v k D bs /\ deferred_verify D k = Some true) ->
    JJ (verify_deferred one k bits) (fun _ => exists D, encodes_deferred p v k D bs /\ holds k D).
  Proof.
    intros H HN. unfold verify_deferred.
    eapply J_bind; [apply (J_unpack k bits bs H); intro E; destruct (HN E) as (_ & D & H1 & _); exact (encodes_length k D bs H1)|].
    cbv beta. intros d (D & HD & Hd).
    assert (HN' : need (k <= 64 /\ deferred_verify D k = Some true)).
    { intro E. destruct (HN E) as (H0 & D' & H1 & H2). rewrite (encodes_inj FL k D D' bs HD H1). split; assumption. }
    clear HN.
    assert (HP : need (~ (d_x D = fzero \/ d_y_cur D = fzero \/ k < 2 \/ d_challenges_sq_packed_old D = [] \/ d_challenges_sq_packed_new D = [] \/
      exists pk, In pk (d_challenges_sq_packed_old D ++ d_challenges_sq_packed_new D) /\ f_sqrt (@get_challenge_scalar F F pk) = None))).
    { intros E X. apply (verify_panics FL D k) in X. destruct (HN' E). congruence. }
    assert (HK : need (k <> 0)) by (intros E ->; apply (HP E); do 2 right; left; lia).
    assert (HR : need (Forall (fun pk => f_sqrt (@get_challenge_scalar F F pk) <> None) (d_challenges_sq_packed_old D ++ d_challenges_sq_packed_new D))).
    { intros E. apply Forall_forall. intros pk Hpk X. apply (HP E). do 5 right. exists pk. split; assumption. }
    assert (HV : need (forall xi yi, fmul (d_x D) xi = fone -> fmul (d_y_cur D) yi = fone ->
      deferred_equation (2 ^ (k - 2)) D xi yi /\ powers_fold_to (d_challenges_sq_packed_old D) (d_x D) (d_gx_old_opening D) /\
        powers_fold_to (d_challenges_sq_packed_new D) (d_x D) (d_b_x D) /\ powers_fold_to (d_challenges_sq_packed_new D) (fmul (d_x D) (d_y_cur D)) (d_b_xy D) /\
        powers_fold_to (d_challenges_sq_packed_new D) (d_y_old D) (d_b_y_old D) /\ powers_fold_to (d_challenges_sq_packed_new D) (d_y_cur D) (d_b_y_cur D) /\
        powers_fold_to (d_challenges_sq_packed_new D) (d_y_new D) (d_b_y_new D))).
    { intros E xi yi Hxi Hyi. destruct (HN' E) as [K1 K2]. specialize (HP E). specialize (HR E).
      destruct (verify_exact FL D k xi yi) as (b & Eb & Hb); try assumption; try tauto.
      { split; [|exact K1]. destruct (Nat.lt_ge_cases k 2); [exfalso; apply HP; tauto|assumption]. }
      apply (proj1 Hb). congruence. }
    assert (HS : forall l, incl l (d_challenges_sq_packed_old D ++ d_challenges_sq_packed_new D) ->
      need (Forall (fun x => f_sqrt x <> None) (sq_of l) /\ Forall (fun x => x <> fzero) (sq_of l))).
    { intros l Hl E. specialize (HR E). unfold sq_of. rewrite !Forall_map, !Forall_forall in *. split; intros pk Hpk.
      - apply HR, Hl, Hpk.
      - intro Z0. destruct (challenge_nonzero FL FL pk) as (i & _ & Hi). rewrite Z0 in Hi. apply (fone_neq_zero OL). rewrite <- Hi. ring. }
    pose proof Hd as (Hx & Hyo & Hy & Hyn & Hky & Htp & Htn & Hsx & Hrx & Hrxy & Hso & Hgx & Hsn & Hbx & Hbxy & Hbyo & Hbyc & Hbyn).
    eapply J_bind.
    { apply (J_check k d D Hd).
      - intro E. specialize (HP E). split; [|tauto]. destruct (Nat.lt_ge_cases k 2); [exfalso; apply HP; tauto|assumption].
      - intros E xi yi Hxi Hyi. apply (HV E xi yi Hxi Hyi). }
    cbv beta. intros xy (Hxy & Hk & xi & yi & Hxi & Hyi & HEQ).
    assert (HV' := fun E => HV E xi yi Hxi Hyi). clear HV.
    eapply J_bind; [apply (J_roots _ _ Hso), HS, incl_appl, incl_refl|]. cbv beta. intros [old old_inv] (co & coi & Ro & Io & Ho & Hoi). cbv beta iota.
    assert (NE : forall (xs rs : list F), length xs = k -> roots (sq_of xs) rs -> need (rs <> [])).
    { intros xs rs HL HR' E ->. inversion HR' as [X|]. unfold sq_of in X. symmetry in X. apply map_eq_nil in X. subst xs. apply (HK E). symmetry. exact HL. }
    assert (LN : forall (xs rs is_ : list F), length xs = k -> roots (sq_of xs) rs -> inverses rs is_ -> need (length rs = length is_ /\ rs <> [])).
    { intros xs rs is_ HL HR' HI E. split; [exact (UnpackP.Forall2_length _ _ _ HI)|exact (NE xs rs HL HR' E)]. }
    destruct HD as (L1 & L2 & HD).
    pose proof (LN _ _ _ L1 Ro Io) as LNo.
    jb Hx Ho Hoi LNo. intros eg (bg & Hbg & Ebg).
    assert (BN : forall (packed rs is_ : list F) x b y, length packed = k -> roots (sq_of packed) rs -> inverses rs is_ -> compute_b x rs is_ = Some b ->
      m = true -> powers_fold_to packed x y -> b = y).
    { intros packed rs is_ x b y HL HR' HI EB E HP'. pose proof (roots_rooted _ _ E HR') as HRR.
      destruct (b_eq FL packed rs is_ x HRR HI (NE packed rs HL HR' E)) as (b' & EB' & HB'). assert (b = b') by congruence. subst b'. apply (proj2 (HB' y) HP'). }
    eapply J_enforce_value; [exact Hbg|exact Hgx|intro E; eapply (BN _ _ _ _ _ _ L1 Ro Io Ebg E); apply (HV' E)|]. intro Eg.
    eapply J_bind; [apply (J_roots _ _ Hsn), HS, incl_appr, incl_refl|]. cbv beta. intros [new new_inv] (cn & cni & Rn & In_ & Hn & Hni). cbv beta iota.
    pose proof (LN _ _ _ L2 Rn In_) as LNn.
    jb Hx Hn Hni LNn. intros e1 (b1 & Hb1 & Eb1). jb Hxy Hn Hni LNn. intros e2 (b2 & Hb2 & Eb2).
    jb Hyo Hn Hni LNn. intros e3 (b3 & Hb3 & Eb3). jb Hy Hn Hni LNn. intros e4 (b4 & Hb4 & Eb4).
    jb Hyn Hn Hni LNn. intros e5 (b5 & Hb5 & Eb5).
    eapply J_enforce_value; [exact Hb1|exact Hbx|intro E; eapply (BN _ _ _ _ _ _ L2 Rn In_ Eb1 E); apply (HV' E)|]. intro G1.
    eapply J_enforce_value; [exact Hb2|exact Hbxy|intro E; eapply (BN _ _ _ _ _ _ L2 Rn In_ Eb2 E); apply (HV' E)|]. intro G2.
    eapply J_enforce_value; [exact Hb3|exact Hbyo|intro E; eapply (BN _ _ _ _ _ _ L2 Rn In_ Eb3 E); apply (HV' E)|]. intro G3.
    eapply J_enforce_value; [exact Hb4|exact Hbyc|intro E; eapply (BN _ _ _ _ _ _ L2 Rn In_ Eb4 E); apply (HV' E)|]. intro G4.
    eapply J_enforce_value; [exact Hb5|exact Hbyn|intro E; eapply (BN _ _ _ _ _ _ L2 Rn In_ Eb5 E); apply (HV' E)|]. intro G5.
    apply J_ret. exists D. split; [split; [exact L1|split; [exact L2|exact HD]]|]. split; [exact Hk|]. split; [exists xi, yi; auto|].
    split; [exists co, coi; split; [apply roots_squares, Ro|split; [exact Io|congruence]]|].
    exists cn, cni. split; [apply roots_squares, Rn|]. split; [exact In_|]. repeat split; congruence.
  Qed.
End Deferred.
