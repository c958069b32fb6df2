(** Pieces of [Proof::new] and [Proof::verify]: challenges and their inverses,
    the polynomial of the public inputs, combinations of commitments. *)
From Coq Require Import List Bool ZArith Arith Lia Ring Field Sorting.Sorted.
From Verif Require Import Lib.AbGroup Lib.Abel Model.FieldTrait Model.Circuits Model.Dev Model.Curve Model.Threads Model.Util Model.Rescue Model.Params Model.Opening Model.Proofs
  Spec.FieldLaws Spec.CircuitSpec Spec.CurveSpec Spec.CurveLaws Spec.UtilSpec Spec.SystemSpec Spec.ProofSpec
  Proofs.FieldGen Proofs.ZtoF Proofs.BatchInvertP Proofs.SumP Proofs.FftP Proofs.ParFftP Proofs.PolyMulP Proofs.SystemP Proofs.CurveTop Proofs.MultiexpP Proofs.FoldP Proofs.ChallengeP Proofs.ParamsP
  Proofs.UtilTop Proofs.IdentityP Proofs.DeferredP Proofs.OpeningP Proofs.OpeningTop.
Import ListNotations.
Open Scope nat_scope.
Open Scope list_scope.

Section Field_.
  Context {F : Field} {p v} (FL : FieldLaws F p v).
  Let OL := fl_ops _ _ _ FL.
  Add Field FF : (ffield OL).
  Local Notation "x [+] y" := (fadd x y) (at level 50, left associativity).
  Local Notation "x [*] y" := (fmul x y) (at level 40, left associativity).

  Lemma feqb_false (a b : F) : a <> b -> feqb a b = false.
  Proof. intro H. destruct (feqb_spec OL a b); [contradiction|reflexivity]. Qed.
  Definition prod_ (l : list F) : F := fold_right fmul fone l.
  Definition inverses (cs cis : list F) : Prop := Forall2 (fun c ci => c [*] ci = fone) cs cis.
  Lemma inverse_nz (c ci : F) : c [*] ci = fone -> c <> fzero.
  Proof. intros H E. apply (fone_neq_zero OL). rewrite <- H, E. ring. Qed.
  Lemma inverses_prod cs cis : inverses cs cis -> prod_ cs [*] prod_ cis = fone.
  Proof.
    induction 1 as [|c ci cs cis H _ IH]; [cbn; ring|]. unfold prod_ in *. cbn [fold_right].
    transitivity ((c [*] ci) [*] (fold_right fmul fone cs [*] fold_right fmul fone cis)); [ring|]. rewrite H, IH. ring.
  Qed.
  Lemma invert_all_eq cs cis : inverses cs cis -> invert_all cs = Some (cis, prod_ cis).
  Proof.
    intro H. unfold invert_all. rewrite (batch_invert_ok OL f_invert (finvert_some FL)). f_equal. f_equal.
    - induction H as [|c ci cs cis H _ IH]; [reflexivity|]. cbn [map]. f_equal; [|exact IH].
      unfold binv, is_zero. rewrite feqb_false by exact (inverse_nz _ _ H). symmetry. apply (inv_unique OL), H.
    - pose proof (inverses_prod _ _ H) as HP. symmetry. apply (inv_unique OL). transitivity (prod_ cs [*] prod_ cis); [|exact HP]. f_equal. clear HP.
      unfold prod_, is_zero. induction H as [|c ci cs cis H _ IH]; [reflexivity|]. cbn [fold_right]. rewrite feqb_false by exact (inverse_nz _ _ H).
      rewrite IH. reflexivity.
  Qed.
  Lemma inverses_ex cs : Forall (fun c => c <> fzero) cs -> exists cis, inverses cs cis.
  Proof.
    induction 1 as [|c cs H _ (cis & IH)]; [exists []; constructor|]. destruct (finvert_some FL c H) as (ci & _ & E). exists (ci :: cis). constructor; assumption.
  Qed.
  Definition rooted (packed cs : list F) : Prop := Forall2 (fun pk c => f_sqrt (@get_challenge_scalar F F pk) = Some c) packed cs.
  Lemma rooted_eq packed cs : rooted packed cs -> root_challenges (unpack_challenges packed) = Some cs.
  Proof.
    unfold root_challenges, unpack_challenges. induction 1 as [|pk c packed cs H _ IH]; [reflexivity|]. unfold all_some in *. cbn [map fold_right]. rewrite H, IH. reflexivity.
  Qed.
  Lemma rooted_sq packed cs : rooted packed cs -> unpack_challenges packed = map fsquare cs.
  Proof.
    unfold unpack_challenges. induction 1 as [|pk c packed cs H _ IH]; [reflexivity|]. cbn [map]. rewrite IH. f_equal.
    apply (ol_inj _ _ _ OL). rewrite (ol_square _ _ _ OL). symmetry. exact (fl_sqrt_some _ _ _ FL _ c H).
  Qed.
  Lemma rooted_inv packed cs : rooted packed cs -> exists cis, inverses cs cis.
  Proof.
    intro H. apply inverses_ex. induction H as [|pk c packed cs H _ IH]; constructor; [|exact IH]. intros ->.
    destruct (challenge_nonzero FL FL pk) as (i & _ & E). apply (inverse_nz _ _ E). apply (ol_inj _ _ _ OL).
    pose proof (fl_sqrt_some _ _ _ FL _ _ H) as X. rewrite <- X, (ol_zero _ _ _ OL). reflexivity.
  Qed.
  Lemma coeffs_eval (x : F) cs : forall cis, inverses cs cis ->
    eval_at (compute_g_coeffs_for_inner_product (map fsquare cs) (prod_ cis)) x = compute_b_rev x (rev cs) (rev cis).
  Proof.
    induction cs as [|c cs IH]; intros cis H; inversion H as [|? ci ? cis' E H']; subst.
    { cbn [map rev compute_b_rev]. unfold prod_. cbn [fold_right]. rewrite coeffs_nil, (eval_cons OL), eval_nil. ring. }
    cbn [map rev]. rewrite (compute_b_snoc OL) by (rewrite !rev_length; exact (Forall2_len _ _ _ H')). rewrite rev_length, coeffs_step, (eval_app OL), (eval_map_mul OL).
    unfold prod_. cbn [fold_right]. fold (prod_ cis'). replace (ci [*] prod_ cis') with (prod_ cis' [*] ci) by ring. rewrite (coeffs_scale OL), (eval_map_mul OL), (IH _ H').
    rewrite map_length, coeffs_length, map_length, (fsquare_mul OL).
    transitivity (compute_b_rev x (rev cs) (rev cis') [*] (ci [+] (c [*] ci) [*] c [*] fpow x (2 ^ length cs))); [ring|]. rewrite E. ring.
  Qed.
  Lemma coeffs_b (x : F) cs cis : cs <> [] -> inverses cs cis ->
    compute_b x cs cis = Some (eval_at (compute_g_coeffs_for_inner_product (map fsquare cs) (prod_ cis)) x).
  Proof.
    intros Hn H. rewrite (coeffs_eval x _ _ H). unfold compute_b. rewrite (proj2 (Nat.eqb_eq _ _) (Forall2_len _ _ _ H)).
    destruct cs; [congruence|]. reflexivity.
  Qed.

  (** *** the public inputs *)
  Lemma coeff_put (l : list F) i x j : i < length l -> coeff (put (S i) x l) j = if j =? i then x else coeff l j.
  Proof.
    intro H. unfold put, coeff. rewrite Nat.sub_succ, Nat.sub_0_r. assert (L : length (firstn i l) = i) by (rewrite firstn_length; lia).
    destruct (Nat.eqb_spec j i) as [->|Hj].
    - rewrite app_nth2 by lia. rewrite L, Nat.sub_diag. reflexivity.
    - destruct (Nat.lt_ge_cases j i) as [Hlt|Hge].
      + rewrite app_nth1 by lia. rewrite <- (firstn_skipn i l) at 2. rewrite app_nth1 by lia. reflexivity.
      + rewrite app_nth2 by lia. rewrite L. destruct (j - i) as [|m] eqn:Em; [lia|]. cbn [nth]. rewrite <- (firstn_skipn (S i) l) at 2.
        assert (L' : length (firstn (S i) l) = S i) by (rewrite firstn_length; lia). rewrite app_nth2 by lia. rewrite L'. f_equal. lia.
  Qed.
  Lemma input_at_lt ps : forall (vals : list F) j, Forall (fun q => j < q) ps -> input_at ps vals j = fzero.
  Proof.
    induction ps as [|q ps IH]; intros [|x vals] j H; try reflexivity. inversion H as [|? ? H1 H2]; subst. cbn [input_at].
    destruct (Nat.eqb_spec q j); [lia|]. apply IH, H2.
  Qed.
  Lemma coeff_resize (l : list F) n j : length l <= n -> coeff (resize l n) j = coeff l j.
  Proof. intro H. unfold coeff. apply resize_nth, H. Qed.
  Lemma build_ky_ok Q : forall ps (vals : list F) ky, length ps = length vals -> StronglySorted lt ps -> Forall (fun q => length ky <= q <= Q) ps -> length ky <= S Q ->
    exists ky', build_ky ky (combine ps vals) = Some ky' /\ length ky <= length ky' <= S Q /\
      forall j, coeff ky' j = if j <? length ky then coeff ky j else input_at ps vals j.
  Proof.
    induction ps as [|q ps IH]; intros [|x vals] ky HL HS HF HK; cbn [length] in HL; try discriminate HL.
    - exists ky. cbn [combine build_ky input_at]. split; [reflexivity|]. split; [lia|]. intro j. destruct (Nat.ltb_spec j (length ky)) as [|Hj]; [reflexivity|].
      unfold coeff. apply nth_overflow, Hj.
    - inversion HS as [|? ? HS1 HS2]; subst. inversion HF as [|? ? HF1 HF2]; subst. cbn [combine build_ky].
      rewrite vec_set_put by (rewrite resize_len; lia). cbn [obind].
      assert (LP : length (put (S q) x (resize ky (q + 1))) = S q) by (rewrite put_length; rewrite resize_len; lia).
      destruct (IH vals (put (S q) x (resize ky (q + 1)))) as (ky' & E & HL' & HC).
      + lia.
      + exact HS1.
      + rewrite LP. apply Forall_forall. intros a Ha. pose proof (proj1 (Forall_forall _ _) HS2 a Ha). pose proof (proj1 (Forall_forall _ _) HF2 a Ha). cbv beta in *. lia.
      + rewrite LP. lia.
      + exists ky'. split; [exact E|]. rewrite LP in *. split; [lia|]. intro j. rewrite HC. cbn [input_at].
        destruct (Nat.ltb_spec j (S q)) as [Hj|Hj].
        * rewrite coeff_put by (rewrite resize_len; lia). rewrite coeff_resize by lia.
          destruct (Nat.eqb_spec j q) as [->|Hjq].
          -- rewrite (proj2 (Nat.ltb_ge _ _)) by lia. rewrite Nat.eqb_refl. reflexivity.
          -- destruct (Nat.ltb_spec j (length ky)) as [|Hjk]; [reflexivity|]. destruct (Nat.eqb_spec q j); [lia|].
             rewrite input_at_lt by (eapply Forall_impl; [|exact HS2]; cbv beta; intros; lia). unfold coeff. apply nth_overflow, Hjk.
        * rewrite (proj2 (Nat.ltb_ge _ _)) by lia. destruct (Nat.eqb_spec q j); [lia|]. reflexivity.
  Qed.
  Lemma eval_bound (a : list F) x n : length a <= n -> eval_at a x = fsum (fun i => coeff a i [*] fpow x i) n.
  Proof.
    intro H. symmetry. unfold eval_at. apply (fsum_pad OL); [exact H|]. intros i Hi. unfold coeff. rewrite nth_overflow by lia. ring.
  Qed.
  Lemma ky_ok (s : layout F) : lay_ok s -> exists ky, build_ky [fzero] (combine (l_inputs s) (l_values s)) = Some ky /\
    1 <= length ky <= S (length (l_lcs s)) /\ forall y, eval_at ky y = k_value (l_inputs s) (l_values s) (length (l_lcs s)) y.
  Proof.
    intro OK. destruct (build_ky_ok (length (l_lcs s)) (l_inputs s) (l_values s) [fzero]) as (ky & E & HL & HC).
    - symmetry. apply lo_values, OK.
    - apply lo_sorted, OK.
    - apply lo_range, OK.
    - cbn [length]. lia.
    - exists ky. split; [exact E|]. cbn [length] in *. split; [lia|]. intro y. rewrite (eval_bound _ _ (S (length (l_lcs s)))) by lia.
      rewrite (fsum_S_l OL), HC. cbn [length]. change (0 <? 1) with true. cbv iota. unfold k_value, sum_q.
      transitivity (fzero [+] fsum (fun i => coeff ky (S i) [*] fpow y (S i)) (length (l_lcs s))); [change (coeff [fzero] 0) with (@fzero F); ring|].
      transitivity (fsum (fun i => coeff ky (S i) [*] fpow y (S i)) (length (l_lcs s))); [ring|]. apply fsum_ext. intros i _.
      rewrite HC. change (S i <? 1) with false. cbv iota. ring.
  Qed.

  Lemma ky_coeff (s : layout F) : lay_ok s -> forall ky, build_ky [fzero] (combine (l_inputs s) (l_values s)) = Some ky ->
    forall j, coeff ky j = input_at (l_inputs s) (l_values s) j.
  Proof.
    intros OK ky Eky j. destruct (build_ky_ok (length (l_lcs s)) (l_inputs s) (l_values s) [fzero]) as (ky' & E & HL & HC).
    - symmetry. apply lo_values, OK.
    - apply lo_sorted, OK.
    - apply lo_range, OK.
    - cbn [length]. lia.
    - assert (ky' = ky) as -> by congruence. rewrite HC. destruct j as [|j]; [|reflexivity]. cbn [length]. change (0 <? 1) with true. cbv iota.
      symmetry. apply input_at_lt. eapply Forall_impl; [|apply lo_range, OK]. cbv beta. intros; lia.
  Qed.

  (** *** combinations of polynomials *)
  Lemma eval_mul_px (l : list F) z x : eval_at (mul_px l z) x = eval_at l x [*] z.
  Proof. unfold mul_px. apply (eval_map_mul OL). Qed.
  Lemma eval_add_zip (l : list F) : forall m x, length m <= length l -> eval_at (add_zip l m) x = eval_at l x [+] eval_at m x.
  Proof.
    induction l as [|a l IH]; intros [|b m] x H; cbn [length] in H; try lia; cbn [add_zip]; rewrite ?eval_nil; try ring.
    rewrite !(eval_cons OL), IH by lia. ring.
  Qed.
  Lemma mul_px_length (l : list F) z : length (mul_px l z) = length l. Proof. apply map_length. Qed.

  (** *** a system determines s(X, y) *)
  Lemma lin_at (l : list F) j : lin l (fun i => if i =? S j then fone else fzero) = coeff l j.
  Proof.
    unfold lin. destruct (Nat.lt_ge_cases j (length l)) as [Hj|Hj].
    - rewrite (fsum_delta OL _ j) by (first [exact Hj | intros i _ Hi; destruct (Nat.eqb_spec (S i) (S j)); [lia|ring]]). rewrite Nat.eqb_refl. ring.
    - rewrite (fsum_zero OL); [unfold coeff; symmetry; apply nth_overflow, Hj|]. intros i Hi. destruct (Nat.eqb_spec (S i) (S j)); [lia|ring].
  Qed.
  Lemma lin_none (l : list F) : lin l (fun _ => fzero) = fzero.
  Proof. unfold lin. apply (fsum_zero OL). intros. ring. Qed.
  Lemma list_coeff (l m : list F) : length l = length m -> (forall j, coeff l j = coeff m j) -> l = m.
  Proof. intros HL H. apply (nth_ext _ _ fzero fzero HL). intros j _. exact (H j). Qed.
  Lemma total_inj (u w z u' w' z' : list F) : length u = length u' -> length w = length w' -> length z = length z' ->
    (forall f, total u w z f = total u' w' z' f) -> u = u' /\ w = w' /\ z = z'.
  Proof.
    intros H1 H2 H3 H. split; [|split]; apply list_coeff; try assumption; intro j; rewrite <- !lin_at.
    - specialize (H (fun x => match x with VA i => if i =? S j then fone else fzero | _ => fzero end)). unfold total in H. rewrite !lin_none in H.
      set (a := lin u _) in *. set (b := lin u' _) in *. transitivity (a [+] fzero [+] fzero); [ring|]. rewrite H. ring.
    - specialize (H (fun x => match x with VB i => if i =? S j then fone else fzero | _ => fzero end)). unfold total in H. rewrite !lin_none in H.
      set (a := lin w _) in *. set (b := lin w' _) in *. transitivity (fzero [+] a [+] fzero); [ring|]. rewrite H. ring.
    - specialize (H (fun x => match x with VC i => if i =? S j then fone else fzero | _ => fzero end)). unfold total in H. rewrite !lin_none in H.
      set (a := lin z _) in *. set (b := lin z' _) in *. transitivity (fzero [+] fzero [+] a); [ring|]. rewrite H. ring.
  Qed.
End Field_.

Section Curve_.
  Context {C : Curve} {q vb r vs} (CL : CurveLaws C q vb r vs).
  Notation F := (Scalar C).
  Notation G := (cl_group _ _ _ _ _ CL).
  Notation rep := (rep CL).
  Notation zsum := (zsum CL).
  Let BL := cl_base _ _ _ _ _ CL.
  Let SL := cl_scalar _ _ _ _ _ CL.
  Let SO := fl_ops _ _ _ SL.
  Add Field Fs : (ffield SO).

  Lemma challenge_nz (t : Rescue (Base C)) (x : F) t' : get_challenge F t = Done (x, t') -> x <> fzero.
  Proof.
    unfold get_challenge. destruct (squeeze t) as [[c t1]|]; cbn [out_opt out_bind]; [|discriminate].
    intro H. assert (Ex : x = f_from_u128 (Z.lor (f_get_lower_128 c) (Z.shiftl 1 127))) by congruence. clear H. subst x. intro E. apply (f_equal vs) in E. rewrite (ol_zero _ _ _ SO) in E.
    rewrite (fl_lower _ _ _ BL) in E. set (m := (vb c mod 2 ^ 128)%Z) in *.
    assert (Hm : (0 <= m < 2 ^ 128)%Z) by (apply Z.mod_pos_bound; reflexivity).
    assert (HT : Z.testbit (Z.lor m (Z.shiftl 1 127)) 127 = true) by (rewrite Z.lor_spec; apply orb_true_r).
    assert (HB : (0 <= Z.lor m (Z.shiftl 1 127) < 2 ^ 128)%Z).
    { assert (H0 : (0 <= Z.lor m (Z.shiftl 1 127))%Z) by (apply Z.lor_nonneg; split; [apply Hm|discriminate]). split; [exact H0|].
      destruct (Z.eq_dec (Z.lor m (Z.shiftl 1 127)) 0) as [->|Hne]; [reflexivity|].
      apply Z.log2_lt_pow2; [lia|]. rewrite Z.log2_lor by (try apply Hm; discriminate).
      apply Z.max_lub_lt; [|reflexivity]. destruct (Z.eq_dec m 0) as [->|Hm0]; [reflexivity|]. apply Z.log2_lt_pow2; lia. }
    rewrite (fl_from_u128 _ _ _ SL _ HB) in E. rewrite E in HT. discriminate HT.
  Qed.

  Lemma sx_same (P : Params C) c1 c2 t1 t2 y : laid_out false c1 t1 -> laid_out false c2 t2 -> same_system t1 t2 -> compute_sx P c1 y = compute_sx P c2 y.
  Proof.
    intros H1 H2 (EG & EL & _). destruct (compute_sx_eq CL P c1 t1 y H1) as (u & w & z & -> & Lu & Lw & Lz & HT).
    destruct (compute_sx_eq CL P c2 t2 y H2) as (u' & w' & z' & -> & Lu' & Lw' & Lz' & HT').
    destruct (total_inj SL u w z u' w' z') as (-> & -> & ->); [congruence| | | |reflexivity]; [congruence| |].
    - congruence.
    - intro f. rewrite HT, HT', EL. reflexivity.
  Qed.

  Lemma zsum_add_zip (l : list F) : forall m gs, length m <= length l -> length l <= length gs ->
    zsum (map vs (add_zip l m)) gs = gp (zsum (map vs l) gs) (zsum (map vs m) (firstn (length m) gs)).
  Proof.
    induction l as [|a l IH]; intros [|b m] [|g gs] H1 H2; cbn [length] in *; try lia; cbn [add_zip map MultiexpP.zsum firstn]; try (symmetry; apply gp_0_r).
    rewrite IH by lia. rewrite (ol_add _ _ _ SO), (zmul_vs_mod CL). abel.
  Qed.
  Lemma combine_ok z (gs : list G) x : forall polys coms (px : list F) P (o : F),
    Forall2 (fun poly c => length poly <= length gs /\ rep c (zsum (map vs poly) (firstn (length poly) gs))) polys coms ->
    length px = length gs -> rep P (zsum (map vs px) gs) -> o = eval_at px x ->
    let px' := fold_left (fun px poly => add_zip (mul_px px z) poly) polys px in
    length px' = length gs /\ rep (combine_commitments z P coms) (zsum (map vs px') gs) /\
    combine_openings (C := C) z o (map (fun p => eval_at p x) polys) = eval_at px' x.
  Proof.
    unfold combine_commitments, combine_openings.
    induction polys as [|poly polys IH]; intros coms px P o H HL HP Ho; inversion H as [|? c ? coms' [H1 H2] H']; subst; cbn [fold_left map].
    - split; [exact HL|]. split; [exact HP|reflexivity].
    - apply IH; [exact H'| | |].
      + rewrite (add_zip_length (F := F)), mul_px_length. exact HL.
      + rewrite zsum_add_zip by (rewrite ?mul_px_length; lia). apply rep_add; [|exact H2]. unfold mul_px. rewrite (zsum_scale CL). apply rep_mul, HP.
      + rewrite (eval_add_zip SL) by (rewrite mul_px_length; lia). rewrite (eval_mul_px SL). reflexivity.
  Qed.
  Lemma zsum_right (l : list F) n gs : length gs = n + length l -> zsum (map vs (repeat fzero n ++ l)) gs = zsum (map vs l) (skipn n gs).
  Proof.
    intro H. rewrite <- (firstn_skipn n gs) at 1. rewrite map_app, (zsum_app CL) by (rewrite map_length, repeat_length, firstn_length; lia).
    rewrite (OpeningP.zsum_zero CL). apply gp_0_l.
  Qed.
End Curve_.

Lemma values_head {F : Field} circuit (s : layout F) : laid_out true circuit s -> exists vals, l_values s = fone :: vals.
Proof.
  intro H. refine (lay_inv (fun s => exists vals, l_values s = fone :: vals) _ _ _ _ true _ _ _ _ _ H).
  - intros t v (vals & E). exists vals. unfold lay_wire. destruct (l_half t); exact E.
  - intros t v (vals & E). unfold lay_input. destruct (lay_wire t v) as [t' x] eqn:EW. cbn [fst l_values].
    assert (l_values t' = l_values t) as ->. { unfold lay_wire in EW. destruct (l_half t); injection EW as <- _; reflexivity. }
    rewrite E. exists (vals ++ [v]). reflexivity.
  - intros t lc E _. exact E.
  - intros t a b c E. exact E.
  - exists []. reflexivity.
Qed.
