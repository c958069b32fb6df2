(** [multiply_polynomials] returns the coefficients of the product. *)
From Coq Require Import List Bool ZArith Arith Lia Ring Field.
From Verif Require Import Model.FieldTrait Model.Threads Model.Util Spec.FieldLaws Spec.UtilSpec Proofs.FieldGen Proofs.ZtoF
  Proofs.ThreadsP Proofs.SumP Proofs.FftP Proofs.ParFftP.
Import ListNotations.
Open Scope nat_scope.

Section PolyMul.
  Context {F : Field} {p v} (FL : FieldLaws F p v).
  Let OL := fl_ops _ _ _ FL.
  Add Field Ff : (ffield OL).
  Notation "a [+] b" := (fadd a b) (at level 50, left associativity). Notation "a [*] b" := (fmul a b) (at level 40, left associativity).
  Notation "a [-] b" := (fsub a b) (at level 50, left associativity).

  Lemma coeff_over (a : list F) i : length a <= i -> coeff a i = fzero.
  Proof. apply nth_overflow. Qed.
  Lemma eval_wide (a : list F) x m : length a <= m -> eval_at a x = fsum (fun i => coeff a i [*] fpow x i) m.
  Proof.
    intro H. unfold eval_at. symmetry. apply (fsum_pad OL); [exact H|]. intros i Hi. rewrite coeff_over by lia. ring.
  Qed.
  Lemma resize_nth (a : list F) m i : length a <= m -> nth i (resize a m) fzero = nth i a fzero.
  Proof.
    intro H. unfold resize. rewrite firstn_all2 by exact H. destruct (Nat.lt_ge_cases i (length a)) as [Hi|Hi].
    - rewrite app_nth1 by exact Hi. reflexivity.
    - rewrite app_nth2 by exact Hi. rewrite (nth_overflow a) by exact Hi. generalize (i - length a), (m - length a). clear.
      intros i n. revert i. induction n as [|n IH]; intros [|i]; cbn [repeat nth]; try reflexivity. apply IH.
  Qed.
  Lemma resize_length (a : list F) m : length a <= m -> length (resize a m) = m.
  Proof. intro H. unfold resize. rewrite app_length, repeat_length, firstn_length. lia. Qed.
  Lemma eval_resize (a : list F) m x : length a <= m -> eval_at (resize a m) x = eval_at a x.
  Proof.
    intro H. rewrite (eval_wide a x m H). unfold eval_at. rewrite resize_length by exact H. apply (fsum_ext (F := F)).
    intros i _. unfold coeff. rewrite resize_nth by exact H. reflexivity.
  Qed.
  Lemma eval_product (a b : list F) m x : length a + length b - 1 <= m -> 0 < length a -> 0 < length b ->
    fsum (fun i => product_coeff a b i [*] fpow x i) m = eval_at a x [*] eval_at b x.
  Proof.
    intros Hm Ha Hb.
    assert (E : forall i, product_coeff a b i = fsum (fun j => if j <=? i then coeff a j [*] coeff b (i - j) else fzero) (length a)).
    { intro i. unfold product_coeff. set (f := fun j => if j <=? i then coeff a j [*] coeff b (i - j) else fzero).
      transitivity (fsum f (length a + S i)).
      - symmetry. rewrite (fsum_pad OL f (S i)); [|lia|].
        + apply (fsum_ext (F := F)). intros j Hj. unfold f. destruct (Nat.leb_spec j i); [reflexivity|lia].
        + intros j Hj. unfold f. destruct (Nat.leb_spec j i); [lia|reflexivity].
      - apply (fsum_pad OL f); [lia|]. intros j Hj. unfold f. rewrite coeff_over by lia. destruct (j <=? i); [ring|reflexivity]. }
    rewrite (fsum_ext (F := F) _ (fun i => fsum (fun j => (if j <=? i then coeff a j [*] coeff b (i - j) else fzero) [*] fpow x i) (length a))).
    2: { intros i _. rewrite E, (fsum_mul_r OL). reflexivity. }
    rewrite (fsum_swap OL (fun i j => (if j <=? i then coeff a j [*] coeff b (i - j) else fzero) [*] fpow x i) m (length a)).
    unfold eval_at at 1. rewrite <- (fsum_mul_r OL). apply (fsum_ext (F := F)). intros j Hj.
    replace m with (j + (m - j)) by lia. rewrite (fsum_app OL).
    rewrite (fsum_zero OL) by (intros i Hi; destruct (Nat.leb_spec j i); [lia|ring]).
    rewrite (eval_wide b x (m - j)) by lia. rewrite <- (fsum_mul_l OL).
    match goal with |- fzero [+] ?u = _ => transitivity u; [ring|] end. apply (fsum_ext (F := F)).
    intros i _. destruct (Nat.leb_spec j (j + i)); [|lia]. replace (j + i - j) with i by lia. rewrite (fpow_add OL). ring.
  Qed.

  (** the inverse transform *)
  Lemma inverse_primitive (w wi : F) n : w [*] wi = fone -> primitive_root w n -> primitive_root wi n.
  Proof.
    intros E [H1 H2]. assert (Hn : forall i, fpow w i [*] fpow wi i = fone).
    { intro i. rewrite <- (fpow_distr OL), E. apply (fpow_one OL). }
    split.
    - rewrite <- (Hn n), H1. ring.
    - intros i Hi E2. apply (H2 i Hi). rewrite <- (Hn i), E2. ring.
  Qed.
  Lemma powers_differ (w wi : F) n i j : w [*] wi = fone -> primitive_root w n -> i < n -> j < n -> i <> j -> fpow w j [*] fpow wi i <> fone.
  Proof.
    intros E H Hi Hj Hne E2.
    assert (Hn : forall i, fpow w i [*] fpow wi i = fone).
    { intro k. rewrite <- (fpow_distr OL), E. apply (fpow_one OL). }
    assert (E3 : fpow w j = fpow w i).
    { transitivity (fpow w j [*] (fpow w i [*] fpow wi i)); [rewrite Hn; ring|].
      transitivity (fpow w i [*] (fpow w j [*] fpow wi i)); [ring|]. rewrite E2. ring. }
    assert (G : forall i j, i < j -> j < n -> fpow w j = fpow w i -> False).
    { clear - OL H Hn. intros i j Hij Hj E. destruct H as [_ H]. apply (H (j - i)); [lia|].
      replace j with (i + (j - i)) in E by lia. rewrite (fpow_add OL) in E.
      transitivity (fpow w (j - i) [*] (fpow w i [*] fpow wi i)); [rewrite Hn; ring|].
      transitivity (fpow w i [*] fpow w (j - i) [*] fpow wi i); [ring|]. rewrite E. apply Hn. }
    destruct (Nat.lt_total i j) as [Hlt|[Heq|Hlt]]; [exact (G i j Hlt Hj E3)|exact (Hne Heq)|exact (G j i Hlt Hi (eq_sym E3))].
  Qed.
  Lemma idft (w wi : F) n (f : nat -> F) i : w [*] wi = fone -> primitive_root w n -> i < n ->
    fsum (fun k => fsum (fun j => f j [*] fpow (fpow w k) j) n [*] fpow (fpow wi i) k) n = fz (Z.of_nat n) [*] f i.
  Proof.
    intros E H Hi.
    rewrite (fsum_ext (F := F) _ (fun k => fsum (fun j => f j [*] fpow (fpow w j [*] fpow wi i) k) n)).
    2: { intros k _. rewrite <- (fsum_mul_r OL). apply (fsum_ext (F := F)). intros j _. rewrite (fpow_distr OL), <- !(fpow_mul OL), (Nat.mul_comm k j). ring. }
    rewrite (fsum_swap OL). rewrite (fsum_delta OL _ i n Hi).
    - rewrite (fsum_mul_l OL). rewrite (fsum_ext (F := F) _ (fun _ => fone)).
      + rewrite (fsum_const OL). ring.
      + intros k _. rewrite <- (fpow_distr OL), E, (fpow_one OL). apply (fpow_one OL).
    - intros j Hj Hne. rewrite (fsum_mul_l OL). set (x := fpow w j [*] fpow wi i).
      assert (Hx : x <> fone) by (apply (powers_differ w wi n i j); auto).
      assert (Hxn : fpow x n = fone).
      { unfold x. rewrite (fpow_distr OL), <- !(fpow_mul OL), (Nat.mul_comm j n), (Nat.mul_comm i n), !(fpow_mul OL).
        destruct (inverse_primitive w wi n E H) as [H2 _]. destruct H as [H1 _]. rewrite H1, H2, !(fpow_one OL). ring. }
      pose proof (geometric OL x n) as Hg. rewrite Hxn in Hg. replace (fone [-] fone) with (@fzero F) in Hg by ring.
      apply (fmul_zero OL) in Hg. destruct Hg as [Hg|Hg]; [exfalso; apply Hx; apply (proj1 (fsub_zero OL _ _) Hg)|].
      rewrite Hg. ring.
  Qed.

  Lemma zip_parallel_eq M site (op : F -> F -> F) a b : 1 <= cpus M -> length a = length b ->
    zip_parallel M site op a b = Some (map (fun '(x, y) => op x y) (combine a b)).
  Proof.
    intros HM HL. unfold zip_parallel. destruct (Nat.ltb_spec (cpus M) (length a)) as [Hlt|Hge].
    - assert (Hn : 0 < length a / cpus M) by (apply Nat.div_str_pos; lia).
      rewrite (proj2 (Nat.eqb_neq _ _)) by lia. f_equal. rewrite scope_eq, map_map.
      apply (unchunk_zip op); [exact Hn| |lia]. intros a' b'. unfold t_result, zip_thread. cbn [t_todo t_chunk]. apply fold_writes0.
    - f_equal. rewrite skipn_all2 by lia. apply app_nil_r.
  Qed.

  Lemma domain_loop_spec fuel : forall coeffs e, e + fuel = 32 -> e < 32 ->
    match @domain_loop F fuel coeffs (2 ^ e) e with
    | Some (m, exp) => m = 2 ^ exp /\ e <= exp < 32 /\ coeffs <= m
    | None => (2 ^ 31 < Z.of_nat coeffs)%Z
    end.
  Proof.
    induction fuel as [|fuel IH]; intros coeffs e He H; [lia|].
    cbn [domain_loop]. destruct (Nat.ltb_spec (2 ^ e) coeffs) as [Hlt|Hge]; [|split; [reflexivity|lia]].
    rewrite (fl_S _ _ _ FL). destruct (Nat.leb_spec 32 (e + 1)) as [H1|H1].
    - assert (E : e = 31) by lia. subst e. apply Nat2Z.inj_lt in Hlt. rewrite Nat2Z.inj_pow in Hlt. exact Hlt.
    - specialize (IH coeffs (e + 1) ltac:(lia) ltac:(lia)).
      replace (2 ^ e * 2) with (2 ^ (e + 1)) by (rewrite Nat.add_1_r; cbn [Nat.pow]; lia).
      destruct (@domain_loop F fuel coeffs (2 ^ (e + 1)) (e + 1)) as [[m exp]|]; [|exact IH]. destruct IH as (I1 & I2 & I3). split; [exact I1|]. lia.
  Qed.
  Lemma domain_loop_small coeffs fuel : forall e m exp, e + fuel = 32 -> e < 32 ->
    @domain_loop F fuel coeffs (2 ^ e) e = Some (m, exp) -> (Z.of_nat coeffs <= 2 ^ 31)%Z.
  Proof.
    induction fuel as [|fuel IH]; intros e m exp He H E; [lia|]. cbn [domain_loop] in E.
    destruct (Nat.ltb_spec (2 ^ e) coeffs) as [Hlt|Hge].
    - rewrite (fl_S _ _ _ FL) in E. destruct (Nat.leb_spec 32 (e + 1)) as [H1|H1]; [discriminate E|].
      replace (2 ^ e * 2) with (2 ^ (e + 1)) in E by (rewrite Nat.add_1_r; cbn [Nat.pow]; lia).
      exact (IH (e + 1) m exp ltac:(lia) ltac:(lia) E).
    - apply Nat2Z.inj_le in Hge. rewrite Nat2Z.inj_pow in Hge. change (Z.of_nat 2) with 2%Z in Hge.
      eapply Z.le_trans; [exact Hge|]. apply Z.pow_le_mono_r; lia.
  Qed.

  Lemma squares e (x : F) : forall n s, fold_left (fun alpha (_ : nat) => fsquare alpha) (seq s n) (fpow x (2 ^ e)) = fpow x (2 ^ (e + n)).
  Proof.
    intros n s. revert e s. induction n as [|n IH]; intros e s; [cbn [seq fold_left]; rewrite Nat.add_0_r; reflexivity|].
    cbn [seq fold_left]. rewrite (fsquare_mul OL), <- (fpow_add OL). replace (2 ^ e + 2 ^ e) with (2 ^ S e) by (cbn [Nat.pow]; lia).
    rewrite IH. do 2 f_equal. lia.
  Qed.
  Lemma ALPHA_root k : k = 31 -> primitive_root (@f_ALPHA F) (2 ^ S k).
  Proof.
    intro Hk. apply (minus_one_root OL). rewrite (fpow_zpow OL). apply (ol_inj _ _ _ OL).
    rewrite (v_zpow OL) by lia. rewrite Nat2Z.inj_pow, Hk. change (Z.of_nat 2) with 2%Z. change (Z.of_nat 31) with 31%Z.
    rewrite (fl_ALPHA _ _ _ FL). rewrite (ol_neg _ _ _ OL), (ol_one _ _ _ OL).
    pose proof (ol_odd _ _ _ OL) as Hp. clear - Hp. apply (Z.mod_unique_pos _ _ (-1)); lia.
  Qed.
  Lemma alpha_root exp : exp < 32 ->
    primitive_root (fold_left (fun alpha (_ : nat) => fsquare alpha) (seq exp (f_S F - exp)) (@f_ALPHA F)) (2 ^ exp).
  Proof.
    intro H. rewrite (fl_S _ _ _ FL). pose proof (squares 0 (@f_ALPHA F) (32 - exp) exp) as E. cbn [Nat.pow] in E.
    rewrite (fpow_1 OL) in E. rewrite E. cbn [Nat.add].
    apply (primitive_pow OL f_ALPHA (2 ^ (32 - exp)) (2 ^ (32 - exp)) (2 ^ exp)); [|reflexivity|apply pow2_pos|apply pow2_pos].
    rewrite <- Nat.pow_add_r. pose proof (ALPHA_root 31 eq_refl) as HA.
    replace (32 - exp + exp) with (S 31) by lia. exact HA.
  Qed.

  Lemma combine_self {A} (l : list A) : combine l l = map (fun x => (x, x)) l.
  Proof. induction l as [|x l IH]; cbn; [reflexivity|rewrite IH; reflexivity]. Qed.
  Lemma combine_map2 {A B C} (f : A -> B) (g : A -> C) l : combine (map f l) (map g l) = map (fun x => (f x, g x)) l.
  Proof. induction l as [|x l IH]; cbn; [reflexivity|rewrite IH; reflexivity]. Qed.

  Theorem multiply_polynomials_eq M (a b : list F) : machine_ok M -> 0 < length a -> 0 < length b ->
    (Z.of_nat (length a + length b - 1) <= 2 ^ 31)%Z ->
    multiply_polynomials M a b = Some (map (product_coeff a b) (seq 0 (length a + length b - 1))).
  Proof.
    intros [HM _] Ha Hb Hsmall. unfold multiply_polynomials.
    destruct (Nat.eqb_spec (length a) 0) as [|_]; [lia|]. destruct (Nat.eqb_spec (length b) 0) as [|_]; [lia|]. cbn [orb].
    replace (length a - 1 + (length b - 1) + 1) with (length a + length b - 1) by lia.
    set (n := length a + length b - 1) in *. rewrite (fl_S _ _ _ FL) at 1.
    pose proof (domain_loop_spec 32 n 0 eq_refl ltac:(lia)) as HD. change (2 ^ 0) with 1 in HD.
    destruct (domain_loop 32 n 1 0) as [[m exp]|]; [|exfalso; clear - HD Hsmall; lia]. destruct HD as (Hm & He & Hnm).
    pose proof (alpha_root exp ltac:(lia)) as Hr. set (alpha := fold_left _ (seq exp (f_S F - exp)) f_ALPHA) in *.
    assert (Hla : length a <= m) by lia. assert (Hlb : length b <= m) by lia.
    rewrite !(best_fft_eq OL) by (try assumption; try (rewrite resize_length by assumption; exact Hm); lia). rewrite <- Hm in *.
    rewrite (zip_parallel_eq M 2 fmul) by (try assumption; rewrite !map_length; reflexivity). rewrite combine_map2, map_map.
    assert (Hnz : alpha <> fzero). { apply (primitive_nonzero OL alpha m); [rewrite Hm; apply pow2_pos|exact Hr]. }
    destruct (fl_invert _ _ _ FL alpha) as (wi & Ewi & Hwi). { intro E. apply Hnz. apply (proj1 (v_eq_zero OL _) E). }
    rewrite Ewi. assert (Hw : alpha [*] wi = fone).
    { apply (ol_inj _ _ _ OL). rewrite (ol_mul _ _ _ OL), Hwi. symmetry. apply (ol_one _ _ _ OL). }
    rewrite (best_fft_eq OL M 3 _ wi exp).
    2: { rewrite map_length, seq_length. exact Hm. }
    2: { lia. }
    2: { rewrite <- Hm. apply (inverse_primitive alpha wi m Hw Hr). }
    rewrite <- Hm.
    assert (Hm64 : (Z.of_nat m < 2 ^ 32)%Z) by (rewrite Hm; apply pow2_lt; lia).
    assert (Hmz : v (@f_from_u64 F (Z.of_nat m)) = Z.of_nat m) by (apply (fl_from_u64 _ _ _ FL); lia).
    assert (Hm0 : 0 < m) by (rewrite Hm; apply pow2_pos).
    destruct (fl_invert _ _ _ FL (@f_from_u64 F (Z.of_nat m))) as (mi & Emi & Hmi); [rewrite Hmz; lia|].
    rewrite Emi. rewrite (zip_parallel_eq M 4) by (try assumption; reflexivity). rewrite combine_self, !map_map.
    assert (Hmm : fz (Z.of_nat m) [*] mi = fone).
    { replace (fz (Z.of_nat m)) with (@f_from_u64 F (Z.of_nat m)).
      - apply (ol_inj _ _ _ OL). rewrite (ol_mul _ _ _ OL), Hmi. symmetry. apply (ol_one _ _ _ OL).
      - rewrite <- (fz_v OL (@f_from_u64 F (Z.of_nat m))). rewrite Hmz. reflexivity. }
    f_equal. rewrite firstn_map. replace (firstn n (seq 0 m)) with (seq 0 n).
    2: { replace m with (n + (m - n)) by lia. rewrite seq_app. rewrite firstn_app, seq_length, Nat.sub_diag.
         rewrite firstn_all2 by (rewrite seq_length; lia). rewrite app_nil_r. reflexivity. }
    apply map_ext_in. intros i Hi. apply in_seq in Hi.
    rewrite (eval_wide _ _ m) by (rewrite map_length, seq_length; lia).
    rewrite (fsum_ext (F := F) _ (fun k => fsum (fun j => product_coeff a b j [*] fpow (fpow alpha k) j) m [*] fpow (fpow wi i) k)).
    - rewrite (idft alpha wi m (product_coeff a b) i Hw Hr ltac:(lia)).
      transitivity (product_coeff a b i [*] (fz (Z.of_nat m) [*] mi)); [ring|]. rewrite Hmm. ring.
    - intros k Hk. unfold coeff at 1. rewrite nth_map_seq by exact Hk. rewrite (eval_product a b m) by lia.
      rewrite !eval_resize by assumption. reflexivity.
  Qed.
  Theorem multiply_polynomials_panics M (a b : list F) : machine_ok M ->
    (multiply_polynomials M a b = None <-> a = [] \/ b = [] \/ (2 ^ 31 < Z.of_nat (length a + length b - 1))%Z).
  Proof.
    intro HM. split.
    - intro H. destruct a as [|x a]; [left; reflexivity|]. destruct b as [|y b]; [right; left; reflexivity|]. right; right.
      apply Z.nle_gt. intro Hle. rewrite multiply_polynomials_eq in H; [discriminate H|exact HM|cbn [length]; lia|cbn [length]; lia|exact Hle].
    - intro H. unfold multiply_polynomials. destruct H as [->|[->|H]]; [reflexivity|rewrite orb_true_r; reflexivity|].
      destruct (Nat.eqb_spec (length a) 0) as [|Ha]; [reflexivity|]. destruct (Nat.eqb_spec (length b) 0) as [|Hb]; [reflexivity|]. cbn [orb].
      destruct (domain_loop (f_S F) (length a - 1 + (length b - 1) + 1) 1 0) as [[m exp]|] eqn:E; [|reflexivity].
      exfalso. rewrite (fl_S _ _ _ FL) in E. apply (domain_loop_small _ 32 0 m exp eq_refl ltac:(lia)) in E.
      replace (length a - 1 + (length b - 1) + 1) with (length a + length b - 1) in E by lia. lia.
  Qed.
End PolyMul.
