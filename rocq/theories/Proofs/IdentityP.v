(** The polynomial identity of the prover: the constant coefficient of
    r(X, 1) (r(X, y) + s'(X, y)) and the satisfaction of the system. *)
From Coq Require Import ZArith String List Bool Arith Lia Ring Field.
From Verif Require Import Model.FieldTrait Model.Circuits Model.Synthesis Model.Dev Model.Curve Model.Threads Model.Util
  Model.Params Model.Opening Model.Proofs Spec.FieldLaws Spec.CircuitSpec Spec.CurveSpec Spec.CurveLaws Spec.UtilSpec Spec.SystemSpec
  Proofs.FieldGen Proofs.ZtoF Proofs.LcP Proofs.SumP Proofs.PolyMulP Proofs.SystemP Proofs.ParamsP.
Import ListNotations.
Open Scope nat_scope.
Open Scope list_scope.

Section Identity.
  Context {F : Field} {p v} (OL : OpsLaws F p v).
  Add Field Ff : (ffield OL).
  Notation "a [+] b" := (fadd a b) (at level 50, left associativity). Notation "a [*] b" := (fmul a b) (at level 40, left associativity).
  Notation "a [-] b" := (fsub a b) (at level 50, left associativity).

  (** *** dot products of lists *)
  Lemma dot_nil (l : list F) : dot [] l = fzero. Proof. reflexivity. Qed.
  Lemma dot_cons x y (a b : list F) : dot (x :: a) (y :: b) = x [*] y [+] dot a b.
  Proof. unfold dot. cbn [length]. rewrite (fsum_S_l OL). reflexivity. Qed.
  Lemma dot_app (a b c d : list F) : length a = length c -> dot (a ++ b) (c ++ d) = dot a c [+] dot b d.
  Proof.
    revert c. induction a as [|x a IH]; intros [|y c] H; try discriminate H; cbn [app]; [rewrite dot_nil; ring|].
    rewrite !dot_cons, IH by (cbn in H; lia). ring.
  Qed.
  Lemma dot_app_l (a b c : list F) : length a <= length b -> dot a (b ++ c) = dot a b.
  Proof.
    intro H. unfold dot. apply fsum_ext. intros i Hi. unfold coeff. rewrite app_nth1 by lia. reflexivity.
  Qed.
  Lemma dot_comm (a b : list F) : length a = length b -> dot a b = dot b a.
  Proof. intro H. unfold dot. rewrite H. apply fsum_ext. intros. ring. Qed.
  Lemma dot_rev (a b : list F) : length a = length b -> dot (rev a) (rev b) = dot a b.
  Proof.
    revert b. induction a as [|x a IH]; intros [|y b] H; try discriminate H; [reflexivity|]. cbn [rev]. cbn [length] in H.
    rewrite dot_app by (rewrite !rev_length; lia). rewrite IH by lia. rewrite !dot_cons, dot_nil. ring.
  Qed.
  Lemma dot_zero_r (a : list F) n : dot a (repeat fzero n) = fzero.
  Proof. unfold dot. apply (fsum_zero OL). intros i _. unfold coeff. rewrite nth_repeat. ring. Qed.
  Lemma dot_map_mul (a b : list F) c : dot a (map (fun t => t [*] c) b) = dot a b [*] c.
  Proof.
    unfold dot. rewrite <- (fsum_mul_r OL). apply fsum_ext. intros i _. unfold coeff.
    destruct (Nat.lt_ge_cases i (length b)) as [Hi|Hi].
    - rewrite (nth_indep (map (fun t => t [*] c) b) fzero (fzero [*] c)) by (rewrite map_length; exact Hi). rewrite (map_nth (fun t => t [*] c)). ring.
    - rewrite (nth_overflow b), (nth_overflow (map (fun t => t [*] c) b)) by (rewrite ?map_length; exact Hi). ring.
  Qed.
  Lemma dot_add_zip (a b c : list F) : length a = length b -> length b = length c -> dot a (add_zip b c) = dot a b [+] dot a c.
  Proof.
    revert b c. induction a as [|x a IH]; intros [|y b] [|z c] H1 H2; try discriminate H1; try discriminate H2; cbn [add_zip]; [rewrite !dot_nil; ring|].
    rewrite !dot_cons, IH by (cbn in *; lia). ring.
  Qed.
  Lemma dot_lin (a b : list F) : dot a b = lin a (wire b).
  Proof. unfold dot, lin. apply fsum_ext. intros i _. unfold wire, coeff. rewrite Nat.sub_succ, Nat.sub_0_r. reflexivity. Qed.
  Lemma add_zip_length (a b : list F) : length (add_zip a b) = length a.
  Proof. revert b. induction a as [|x a IH]; intros [|y b]; cbn [add_zip length]; [reflexivity..|]. rewrite IH. reflexivity. Qed.
  Lemma eval_add_zip (a b : list F) x : length b <= length a -> eval_at (add_zip a b) x = eval_at a x [+] eval_at b x.
  Proof.
    revert b. induction a as [|c a IH]; intros [|d b] H; cbn [add_zip length] in *; rewrite ?eval_nil; [ring|lia|ring|].
    rewrite !(eval_cons OL), IH by lia. ring.
  Qed.

  (** *** geometric scaling *)
  Lemma scale_geo_length (l : list F) c y : length (scale_geo l c y) = length l.
  Proof. revert c. induction l as [|d l IH]; intro c; cbn [scale_geo length]; [reflexivity|]. rewrite IH. reflexivity. Qed.
  Lemma scale_geo_app (l m : list F) y : forall c, scale_geo (l ++ m) c y = scale_geo l c y ++ scale_geo m (c [*] fpow y (length l)) y.
  Proof.
    induction l as [|d l IH]; intro c; cbn [app scale_geo length].
    - cbn [fpow]. f_equal. ring.
    - rewrite IH. cbn [fpow]. do 3 f_equal. ring.
  Qed.
  Lemma eval_scale_geo (l : list F) y x : forall c, eval_at (scale_geo l c y) x = c [*] eval_at l (x [*] y).
  Proof.
    induction l as [|d l IH]; intro c; cbn [scale_geo]; [rewrite !eval_nil; ring|]. rewrite !(eval_cons OL), IH. ring.
  Qed.
  Lemma coeff_scale_geo (l : list F) y : forall c i, coeff (scale_geo l c y) i = coeff l i [*] (c [*] fpow y i).
  Proof.
    induction l as [|d l IH]; intros c i; cbn [scale_geo].
    - unfold coeff. destruct i; cbn [nth]; ring.
    - destruct i as [|i]; [unfold coeff; cbn [nth fpow]; ring|].
      change (coeff (fmul d c :: scale_geo l (c [*] y) y) (S i)) with (coeff (scale_geo l (c [*] y) y) i). rewrite IH.
      change (coeff (d :: l) (S i)) with (coeff l i). cbn [fpow]. ring.
  Qed.
  Lemma rev_scale_geo (l : list F) y yi c : y [*] yi = fone -> rev (scale_geo (rev l) (c [*] fpow y (length l)) yi) = scale_geo l (c [*] y) y.
  Proof.
    intro Hy. revert c. induction l as [|d l IH]; intro c; [reflexivity|]. cbn [rev scale_geo]. rewrite scale_geo_app, rev_app_distr, rev_length.
    cbn [scale_geo rev app length].
    replace (c [*] fpow y (S (length l))) with ((c [*] y) [*] fpow y (length l)) by (cbn [fpow]; ring).
    rewrite IH. f_equal. f_equal.
    assert (P : fpow y (length l) [*] fpow yi (length l) = fone) by (rewrite <- (fpow_distr OL), Hy; apply (fpow_one OL)).
    transitivity (c [*] y [*] (fpow y (length l) [*] fpow yi (length l))); [ring|]. rewrite P. ring.
  Qed.
  Lemma sub_geo_length (l : list F) y yi : forall a b, length (sub_geo l a b y yi) = length l.
  Proof. induction l as [|d l IH]; intros a b; cbn [sub_geo length]; [reflexivity|]. rewrite IH. reflexivity. Qed.
  Lemma coeff_sub_geo (l : list F) y yi : forall a b i, i < length l ->
    coeff (sub_geo l a b y yi) i = coeff l i [-] a [*] fpow y i [-] b [*] fpow yi i.
  Proof.
    induction l as [|d l IH]; intros a b i Hi; cbn [length] in Hi; [lia|]. destruct i as [|i]; [unfold coeff; cbn [sub_geo nth fpow]; ring|].
    change (coeff (sub_geo (d :: l) a b y yi) (S i)) with (coeff (sub_geo l (a [*] y) (b [*] yi) y yi) i). rewrite IH by lia.
    change (coeff (d :: l) (S i)) with (coeff l i). cbn [fpow]. ring.
  Qed.
  Lemma eval_sub_geo (l : list F) y yi x : forall a b,
    eval_at (sub_geo l a b y yi) x = eval_at l x [-] a [*] fsum (fpow (x [*] y)) (length l) [-] b [*] fsum (fpow (x [*] yi)) (length l).
  Proof.
    induction l as [|d l IH]; intros a b; cbn [sub_geo length]; [rewrite !eval_nil; cbn [fsum]; ring|].
    rewrite !(eval_cons OL), IH, !(fsum_S_l OL). cbn [fpow].
    assert (E : forall z : F, fsum (fun i => z [*] fpow z i) (length l) = z [*] fsum (fpow z) (length l)) by (intro z; apply (fsum_mul_l OL)).
    rewrite !E. ring.
  Qed.

  (** *** r and s' *)
  Definition rx_vec (a b c : list F) : list F := rev c ++ rev b ++ [fzero] ++ a.
  Definition sx_vec0 (u w z : list F) : list F := rev u ++ [fzero] ++ w ++ z.
  Lemma rx_length n a b c : length a = n -> length b = n -> length c = n -> length (rx_vec a b c) = 3 * n + 1.
  Proof. intros. unfold rx_vec. rewrite !app_length, !rev_length. cbn [length]. lia. Qed.

  Lemma prime_parts n a b c u w z y yi : length a = n -> length b = n -> length c = n -> length u = n -> length w = n -> length z = n ->
    (Z.of_nat n < 2 ^ 64)%Z ->
    let rxy := rev (scale_geo (rev (rx_vec a b c)) (fpow y n) yi) in
    let s' := map (fun t => t [*] fpow y n) (rev u ++ [fzero] ++ w) ++ sub_geo (map (fun t => t [*] fpow y n) z) y yi y yi in
    length rxy = 3 * n + 1 /\ length s' = 3 * n + 1 /\
    prime_poly n (rx_vec a b c) (sx_vec0 u w z) y yi = Some (firstn n rxy ++ add_zip (skipn n rxy ++ repeat fzero n) s').
  Proof.
    intros Ha Hb Hc Hu Hw Hz HZ. cbv zeta.
    set (rxy := rev (scale_geo (rev (rx_vec a b c)) (fpow y n) yi)).
    assert (Lr : length rxy = 3 * n + 1). { unfold rxy. rewrite rev_length, scale_geo_length, rev_length. apply rx_length; assumption. }
    set (m := fun t => t [*] fpow y n).
    assert (Ls : length (map m (rev u ++ [fzero] ++ w) ++ sub_geo (map m z) y yi y yi) = 3 * n + 1).
    { rewrite app_length, sub_geo_length, !map_length, !app_length, rev_length. cbn [length]. lia. }
    split; [exact Lr|]. split; [exact Ls|].
    unfold prime_poly. rewrite (pow64 OL) by exact HZ. fold rxy. unfold mul_px, sx_vec0. fold m.
    assert (L1 : length (map m (rev u ++ [fzero] ++ w)) = 2 * n + 1).
    { rewrite map_length, !app_length, rev_length. cbn [length]. lia. }
    replace (map m (rev u ++ [fzero] ++ w ++ z)) with (map m (rev u ++ [fzero] ++ w) ++ map m z) by (rewrite <- map_app, <- !app_assoc; reflexivity).
    unfold slice_to, slice_from. rewrite app_length, L1, map_length, Hz.
    rewrite (proj2 (Nat.leb_le _ _)) by lia. cbn [obind]. rewrite <- L1, firstn_app, skipn_app, firstn_all, skipn_all, Nat.sub_diag. cbn [firstn skipn app].
    rewrite map_length, Hz, Nat.eqb_refl, app_nil_r.
    rewrite resize_app by (rewrite Lr; lia). rewrite Lr. replace (4 * n + 1 - (3 * n + 1)) with n by lia.
    rewrite app_length, repeat_length, Lr. rewrite (proj2 (Nat.leb_le _ _)) by lia. cbn [obind].
    rewrite firstn_app, skipn_app, Lr. replace (n - (3 * n + 1)) with 0 by lia. cbn [firstn skipn]. rewrite app_nil_r.
    cbn [app] in Ls. rewrite Ls, app_length, repeat_length, skipn_length, Lr. rewrite (proj2 (Nat.eqb_eq _ _)) by lia. reflexivity.
  Qed.

  Lemma product_top (a b : list F) : length a <= length b -> 0 < length b -> product_coeff a b (length b - 1) = dot a (rev b).
  Proof.
    intros H H0. unfold product_coeff, dot. replace (S (length b - 1)) with (length b) by lia.
    rewrite (fsum_pad OL _ (length a)) by (try lia; intros i Hi; rewrite coeff_over by lia; ring).
    apply fsum_ext. intros i Hi. f_equal. unfold coeff. rewrite rev_nth by lia. f_equal. lia.
  Qed.
  Ltac len := repeat (rewrite ?app_length, ?rev_length, ?scale_geo_length, ?sub_geo_length, ?repeat_length, ?map_length, ?add_zip_length; cbn [length]); try lia.
  Lemma rxy_shape n a b c y yi : length a = n -> length b = n -> length c = n -> y [*] yi = fone ->
    exists hd, length hd = n /\ rev (scale_geo (rev (rx_vec a b c)) (fpow y n) yi) =
      hd ++ rev (scale_geo b yi yi) ++ [fzero] ++ scale_geo a y y.
  Proof.
    intros Ha Hb Hc Hy. unfold rx_vec. rewrite !rev_app_distr, !rev_involutive. cbn [rev app]. rewrite <- !app_assoc. cbn [app].
    rewrite scale_geo_app, rev_app_distr, rev_length. cbn [scale_geo rev]. rewrite Ha.
    assert (P : fpow y n [*] fpow yi n = fone) by (rewrite <- (fpow_distr OL), Hy; apply (fpow_one OL)).
    rewrite P, scale_geo_app, rev_app_distr.
    replace (fone [*] yi) with yi by ring.
    exists (rev (scale_geo c (yi [*] fpow yi (length b)) yi)). split; [rewrite rev_length, scale_geo_length; exact Hc|].
    rewrite <- !app_assoc. do 2 f_equal. cbn [app]. f_equal; [ring|].
    pose proof (rev_scale_geo a y yi fone Hy) as E. rewrite Ha in E.
    replace (fone [*] fpow y n) with (fpow y n) in E by ring. replace (fone [*] y) with y in E by ring. exact E.
  Qed.

  Lemma dot_scale_geo n (a b : list F) y : length a = n -> dot a (scale_geo b y y) = fsum (fun i => coeff a i [*] coeff b i [*] fpow y (S i)) n.
  Proof. intro H. unfold dot. rewrite H. apply fsum_ext. intros i _. rewrite coeff_scale_geo. cbn [fpow]. ring. Qed.

  (** the constant coefficient *)
  Lemma constant_coeff n a b c u w z y yi : length a = n -> length b = n -> length c = n -> length u = n -> length w = n -> length z = n ->
    (Z.of_nat n < 2 ^ 64)%Z -> y [*] yi = fone ->
    exists rp, prime_poly n (rx_vec a b c) (sx_vec0 u w z) y yi = Some rp /\ length rp = 4 * n + 1 /\
      product_coeff (rx_vec a b c) rp (4 * n) =
        fsum (fun i => (coeff a i [*] coeff b i [-] coeff c i) [*] (fpow y (S i) [+] fpow yi (S i))) n
        [+] fpow y n [*] (dot a u [+] dot b w [+] dot c z).
  Proof.
    intros Ha Hb Hc Hu Hw Hz HZ Hy.
    destruct (prime_parts n a b c u w z y yi Ha Hb Hc Hu Hw Hz HZ) as (Lr & Ls & EP). cbv zeta in *. eexists. split; [exact EP|].
    destruct (rxy_shape n a b c y yi Ha Hb Hc Hy) as (hd & Hhd & ER). rewrite ER in *. clear EP ER.
    assert (LP : length (firstn n (hd ++ rev (scale_geo b yi yi) ++ [fzero] ++ scale_geo a y y) ++
       add_zip (skipn n (hd ++ rev (scale_geo b yi yi) ++ [fzero] ++ scale_geo a y y) ++ repeat fzero n)
         (map (fun t => t [*] fpow y n) (rev u ++ [fzero] ++ w) ++ sub_geo (map (fun t => t [*] fpow y n) z) y yi y yi)) = 4 * n + 1).
    { rewrite app_length, add_zip_length, app_length, repeat_length, firstn_length, skipn_length. lia. }
    split; [exact LP|].
    pose proof (rx_length n a b c Ha Hb Hc) as Lx.
    pose proof (product_top (rx_vec a b c) _ ltac:(rewrite LP, Lx; lia) ltac:(rewrite LP; lia)) as EP. rewrite LP in EP.
    replace (4 * n + 1 - 1) with (4 * n) in EP by lia. rewrite EP. clear EP LP.
    rewrite firstn_app, skipn_app, firstn_all2, skipn_all2 by lia. rewrite Hhd, Nat.sub_diag. cbn [firstn skipn app].
    rewrite app_nil_r.
    rewrite rev_app_distr, dot_app_l by (rewrite Lx; len).
    rewrite <- (rev_involutive (rx_vec a b c)).
    rewrite dot_rev by (rewrite rev_length, Lx; len).
    rewrite dot_add_zip.
    2: { rewrite rev_length, Lx; len. }
    2: { len. }
    unfold rx_vec. rewrite !rev_app_distr, !rev_involutive. cbn [rev app]. rewrite <- !app_assoc. cbn [app].
    rewrite !map_app. cbn [map app]. rewrite <- !app_assoc. cbn [app].
    rewrite !dot_app by (rewrite ?map_length, ?rev_length, ?scale_geo_length; lia).
    rewrite !dot_cons.
    rewrite !dot_app by (rewrite ?map_length, ?rev_length, ?scale_geo_length; lia).
    rewrite dot_rev by (rewrite scale_geo_length; lia). rewrite dot_zero_r, !dot_map_mul.
    rewrite (dot_rev a u) by lia.
    rewrite (dot_scale_geo n) by exact Ha. rewrite (dot_scale_geo n) by exact Hb.
    assert (ES : dot c (sub_geo (map (fun t => t [*] fpow y n) z) y yi y yi) =
      dot c z [*] fpow y n [-] fsum (fun i => coeff c i [*] (fpow y (S i) [+] fpow yi (S i))) n).
    { rewrite <- dot_map_mul. unfold dot. rewrite Hc, <- (fsum_sub OL). apply fsum_ext. intros i Hi.
      rewrite coeff_sub_geo by (rewrite map_length; lia). cbn [fpow]. ring. }
    rewrite ES.
    assert (E2 : fsum (fun i => (coeff a i [*] coeff b i [-] coeff c i) [*] (fpow y (S i) [+] fpow yi (S i))) n =
      fsum (fun i => coeff a i [*] coeff b i [*] fpow yi (S i)) n [+] fsum (fun i => coeff b i [*] coeff a i [*] fpow y (S i)) n
      [-] fsum (fun i => coeff c i [*] (fpow y (S i) [+] fpow yi (S i))) n).
    { rewrite <- (fsum_add OL), <- (fsum_sub OL). apply fsum_ext. intros i _. ring. }
    rewrite E2. ring.
  Qed.

  (** the value of r(X, y) + s'(X, y) *)
  Lemma prime_eval n a b c u w z y yi x rp : length a = n -> length b = n -> length c = n -> length u = n -> length w = n -> length z = n ->
    (Z.of_nat n < 2 ^ 64)%Z -> y [*] yi = fone -> prime_poly n (rx_vec a b c) (sx_vec0 u w z) y yi = Some rp ->
    eval_at rp x = fpow yi (2 * n) [*] eval_at (rx_vec a b c) (x [*] y)
      [+] fpow x n [*] (fpow y n [*] eval_at (sx_vec0 u w z) x)
      [-] fpow x (3 * n) [*] (fsum (fun i => fpow (x [*] y) (S i)) n [+] fsum (fun i => fpow (x [*] yi) (S i)) n).
  Proof.
    intros Ha Hb Hc Hu Hw Hz HZ Hy H.
    destruct (prime_parts n a b c u w z y yi Ha Hb Hc Hu Hw Hz HZ) as (Lr & Ls & EP). cbv zeta in *. rewrite EP in H.
    assert (E : forall (l l' : list F), Some l = Some l' -> l = l') by (intros; congruence). apply E in H. subst rp. clear E EP.
    assert (ER : rev (scale_geo (rev (rx_vec a b c)) (fpow y n) yi) = scale_geo (rx_vec a b c) (fpow yi (2 * n)) y).
    { pose proof (rev_scale_geo (rx_vec a b c) y yi (fpow yi (2 * n + 1)) Hy) as E. rewrite (rx_length n) in E by assumption.
      assert (P : forall m, fpow y m [*] fpow yi m = fone) by (intro m; rewrite <- (fpow_distr OL), Hy; apply (fpow_one OL)).
      replace (3 * n + 1) with (n + (2 * n + 1)) in E by lia. rewrite (fpow_add OL y n (2 * n + 1)) in E.
      replace (fpow yi (2 * n + 1) [*] (fpow y n [*] fpow y (2 * n + 1))) with (fpow y n) in E.
      2: { transitivity (fpow y n [*] (fpow y (2 * n + 1) [*] fpow yi (2 * n + 1))); [rewrite P; ring|ring]. }
      rewrite E. f_equal. rewrite (fpow_add OL yi (2 * n) 1), (fpow_1 OL). transitivity (fpow yi (2 * n) [*] (y [*] yi)); [ring|]. rewrite Hy. ring. }
    rewrite (eval_app OL), eval_add_zip by (rewrite Ls, app_length, skipn_length, repeat_length, Lr; lia).
    rewrite firstn_length, Lr, Nat.min_l by lia.
    transitivity (eval_at (firstn n (rev (scale_geo (rev (rx_vec a b c)) (fpow y n) yi)) ++
       skipn n (rev (scale_geo (rev (rx_vec a b c)) (fpow y n) yi)) ++ repeat fzero n) x [+] fpow x n [*]
       eval_at (map (fun t => t [*] fpow y n) (rev u ++ [fzero] ++ w) ++ sub_geo (map (fun t => t [*] fpow y n) z) y yi y yi) x).
    { rewrite (eval_app OL (firstn _ _)), firstn_length, Lr, Nat.min_l by lia. ring. }
    rewrite app_assoc, firstn_skipn, (eval_app OL _ (repeat _ _)), (eval_repeat OL), ER, eval_scale_geo.
    rewrite (eval_app OL (map _ _)), eval_sub_geo, !map_length, Hz, !app_length, rev_length. cbn [length]. rewrite Hu, Hw.
    replace (n + (1 + n)) with (2 * n + 1) by lia.
    assert (ES : eval_at (sx_vec0 u w z) x [*] fpow y n = eval_at (map (fun t => t [*] fpow y n) (rev u ++ [fzero] ++ w)) x
       [+] fpow x (2 * n + 1) [*] eval_at (map (fun t => t [*] fpow y n) z) x).
    { unfold sx_vec0. rewrite !(eval_map_mul OL).
      replace (rev u ++ [fzero] ++ w ++ z) with ((rev u ++ [fzero] ++ w) ++ z) by (rewrite <- !app_assoc; reflexivity).
      rewrite (eval_app OL (rev u ++ [fzero] ++ w) z), !app_length, rev_length. cbn [length]. rewrite Hu, Hw. replace (n + (1 + n)) with (2 * n + 1) by lia. ring. }
    assert (EQ : forall t : F, fsum (fun i => fpow t (S i)) n = t [*] fsum (fpow t) n) by (intro t; exact (fsum_mul_l OL t (fpow t) n)).
    rewrite !EQ. replace (3 * n) with (n + 2 * n) by lia. rewrite (fpow_add OL x n (2 * n)).
    transitivity (fpow yi (2 * n) [*] eval_at (rx_vec a b c) (x [*] y) [+] fpow x n [*] (eval_at (sx_vec0 u w z) x [*] fpow y n)
      [-] fpow x n [*] fpow x (2 * n) [*] (x [*] y [*] fsum (fpow (x [*] y)) n [+] x [*] yi [*] fsum (fpow (x [*] yi)) n)); [|ring].
    rewrite ES, (fpow_add OL x (2 * n) 1), (fpow_1 OL). ring.
  Qed.

  (** *** a polynomial with more roots than its degree *)
  Fixpoint quotient (l : list F) (y : F) : list F :=
    match l with
    | [] => []
    | _ :: l => match l with [] => [] | _ => eval_at l y :: quotient l y end
    end.
  Lemma quotient_length l y : length (quotient l y) = length l - 1.
  Proof. induction l as [|c [|d l] IH]; [reflexivity..|]. cbn [quotient length] in *. rewrite IH. lia. Qed.
  Lemma quotient_eval l y x : eval_at l x [-] eval_at l y = (x [-] y) [*] eval_at (quotient l y) x.
  Proof.
    induction l as [|c [|d l] IH].
    - rewrite !eval_nil. cbn [quotient]. rewrite eval_nil. ring.
    - cbn [quotient]. rewrite !(eval_cons OL), !eval_nil. ring.
    - cbn [quotient] in *. rewrite !(eval_cons OL c), (eval_cons OL (eval_at (d :: l) y)).
      transitivity (x [*] (eval_at (d :: l) x [-] eval_at (d :: l) y) [+] (x [-] y) [*] eval_at (d :: l) y); [ring|]. rewrite IH. ring.
  Qed.
  Lemma quotient_zero l y : Forall (eq fzero) (quotient l y) -> eval_at l y = fzero -> Forall (eq fzero) l.
  Proof.
    induction l as [|c [|d l] IH]; intros H E; constructor.
    - rewrite (eval_cons OL), eval_nil in E. rewrite <- E. ring.
    - constructor.
    - cbn [quotient] in H. inversion H as [|? ? H1 H2]. rewrite (eval_cons OL), <- H1 in E. rewrite <- E. ring.
    - cbn [quotient] in H. inversion H as [|? ? H1 H2]. apply IH; [exact H2|symmetry; exact H1].
  Qed.
  Lemma roots_zero (ys : list F) : NoDup ys -> forall l : list F, length l <= length ys -> (forall y, In y ys -> eval_at l y = fzero) -> Forall (eq fzero) l.
  Proof.
    induction 1 as [|y ys Hy HD IH]; intros l HL HE; [destruct l; [constructor|cbn in HL; lia]|].
    apply (quotient_zero l y); [|apply HE; left; reflexivity]. apply IH; [rewrite quotient_length; cbn in HL; lia|].
    intros x Hx. pose proof (quotient_eval l y x) as E. rewrite (HE x), (HE y) in E by (try (left; reflexivity); right; exact Hx).
    assert (E0 : (x [-] y) [*] eval_at (quotient l y) x = fzero) by (rewrite <- E; ring).
    apply (fmul_zero OL) in E0. destruct E0 as [E0|E0]; [|exact E0]. apply (proj1 (fsub_zero OL x y)) in E0. rewrite E0 in Hx. contradiction.
  Qed.

  (** *** satisfaction *)
  Definition gate_error (s : layout F) (i : nat) : F := wire (l_a s) i [*] wire (l_b s) i [-] wire (l_c s) i.
  Definition lc_error (s : layout F) (q : nat) : F :=
    lc_val (wires (l_a s) (l_b s) (l_c s)) (lc_number (l_lcs s) q) [-] input_at (l_inputs s) (l_values s) q.
  Lemma satisfied_errors (s : layout F) : satisfied s <->
    (forall i, 1 <= i <= l_gates s -> gate_error s i = fzero) /\ (forall q, 1 <= q <= length (l_lcs s) -> lc_error s q = fzero).
  Proof.
    unfold satisfied, gates_satisfied, lcs_satisfied, gate_error, lc_error, lc_number. split.
    - intros [H1 H2]. split.
      + intros i Hi. apply (fsub_zero OL). apply H1, Hi.
      + intros q Hq. apply (fsub_zero OL). apply H2; [|lia]. apply nth_error_nth'. lia.
    - intros [H1 H2]. split.
      + intros i Hi. apply (fsub_zero OL). apply H1, Hi.
      + intros q lc Hlc Hq. apply (fsub_zero OL).
        assert (Hl : q - 1 < length (l_lcs s)) by (apply nth_error_Some; congruence).
        pose proof (H2 q ltac:(lia)) as E. pose proof (nth_error_nth _ _ ([] : LC F) Hlc) as EN. unfold lc_number in E. rewrite EN in E. exact E.
  Qed.
  (** the constant coefficient minus y^n k(y), as a polynomial times y^-n *)
  Definition error_poly (n : nat) (s : layout F) : list F :=
    let D := map (fun i => gate_error s (S i)) (seq 0 n) in
    rev D ++ [fzero] ++ D ++ map (fun q => lc_error s (S q)) (seq 0 (length (l_lcs s))).
  Definition constant_value (n : nat) (s : layout F) (y yi : F) : F :=
    sum_q (fun i => gate_error s i [*] (fpow y i [+] fpow yi i)) (l_gates s)
    [+] fpow y n [*] sum_q (fun q => fpow y q [*] lc_val (wires (l_a s) (l_b s) (l_c s)) (lc_number (l_lcs s) q)) (length (l_lcs s)).
  Lemma coeff_map_seq (f : nat -> F) n i : i < n -> coeff (map f (seq 0 n)) i = f i.
  Proof.
    intro H. unfold coeff. rewrite (nth_indep _ fzero (f 0)) by (rewrite map_length, seq_length; exact H). rewrite map_nth, seq_nth by exact H. reflexivity.
  Qed.
  Lemma lin_map_seq (f g : nat -> F) n : lin (map (fun i => f (S i)) (seq 0 n)) g = sum_q (fun i => f i [*] g i) n.
  Proof.
    unfold lin, sum_q. rewrite map_length, seq_length. apply fsum_ext. intros i Hi. rewrite (coeff_map_seq (fun i => f (S i))) by exact Hi. reflexivity.
  Qed.
  Lemma gate_error_over (s : layout F) i : lay_ok s -> l_gates s < i -> gate_error s i = fzero.
  Proof.
    intros H Hi. unfold gate_error, wire. rewrite !nth_overflow by (rewrite ?(lo_a _ H), ?(lo_b _ H), ?(lo_c _ H); lia). ring.
  Qed.
  Lemma error_eval n (s : layout F) y yi : lay_ok s -> l_gates s <= n -> y [*] yi = fone ->
    eval_at (error_poly n s) y = fpow y n [*] (constant_value n s y yi [-] fpow y n [*] k_value (l_inputs s) (l_values s) (length (l_lcs s)) y).
  Proof.
    intros HL HN Hy. unfold error_poly. set (D := map (fun i => gate_error s (S i)) (seq 0 n)). set (E := map (fun q => lc_error s (S q)) _).
    assert (LD : length D = n) by (unfold D; rewrite map_length, seq_length; reflexivity).
    cbv zeta. rewrite !(eval_app OL), (eval_rev_lin OL D y yi Hy), rev_length, LD, (eval_cons OL fzero []), eval_nil. cbn [length].
    rewrite (fpow_1 OL).
    assert (ED : forall z, lin D (fpow z) = sum_q (fun i => gate_error s i [*] fpow z i) (l_gates s)).
    { intro z. unfold D. rewrite (lin_map_seq (gate_error s)). unfold sum_q. apply (fsum_pad OL); [exact HN|].
      intros i Hi. rewrite gate_error_over by (assumption || lia). ring. }
    pose proof (lin_eval OL D y) as E1. rewrite ED in E1.
    pose proof (lin_eval OL E y) as E2. unfold E in E2 at 1. rewrite (lin_map_seq (lc_error s)) in E2.
    rewrite ED.
    assert (EC : constant_value n s y yi = sum_q (fun i => gate_error s i [*] fpow y i) (l_gates s) [+] sum_q (fun i => gate_error s i [*] fpow yi i) (l_gates s)
      [+] fpow y n [*] sum_q (fun q => fpow y q [*] lc_val (wires (l_a s) (l_b s) (l_c s)) (lc_number (l_lcs s) q)) (length (l_lcs s))).
    { unfold constant_value. f_equal. unfold sum_q. rewrite <- (fsum_add OL). apply fsum_ext. intros i _. ring. }
    assert (EL : sum_q (fun i => lc_error s i [*] fpow y i) (length (l_lcs s)) =
      sum_q (fun q => fpow y q [*] lc_val (wires (l_a s) (l_b s) (l_c s)) (lc_number (l_lcs s) q)) (length (l_lcs s))
      [-] k_value (l_inputs s) (l_values s) (length (l_lcs s)) y).
    { unfold k_value, sum_q. rewrite <- (fsum_sub OL). apply fsum_ext. intros i _. unfold lc_error. ring. }
    rewrite EL in E2. rewrite EC. unfold D in E1. fold D in E1.
    transitivity (fpow y n [*] (sum_q (fun i => gate_error s i [*] fpow yi i) (l_gates s) [+] (y [*] eval_at D y) [+] fpow y n [*] (y [*] eval_at E y))); [ring|].
    rewrite <- E1, <- E2. ring.
  Qed.
  Lemma satisfied_error n (s : layout F) : l_gates s <= n -> Forall (eq fzero) (error_poly n s) -> satisfied s.
  Proof.
    intro HN. rewrite satisfied_errors. unfold error_poly. cbv zeta. rewrite !Forall_app.
    intros (_ & _ & HD & HE). rewrite Forall_forall in HD, HE. split.
    - intros i Hi. symmetry. apply HD. apply in_map_iff. exists (i - 1). split; [f_equal; lia|apply in_seq; lia].
    - intros q Hq. symmetry. apply HE. apply in_map_iff. exists (q - 1). split; [f_equal; lia|apply in_seq; lia].
  Qed.
  Lemma satisfied_constant n (s : layout F) y yi : satisfied s ->
    constant_value n s y yi = fpow y n [*] k_value (l_inputs s) (l_values s) (length (l_lcs s)) y.
  Proof.
    intro H. apply satisfied_errors in H. destruct H as [H1 H2]. unfold constant_value, k_value.
    replace (sum_q (fun i => gate_error s i [*] (fpow y i [+] fpow yi i)) (l_gates s)) with (@fzero F).
    - assert (E : sum_q (fun q => fpow y q [*] lc_val (wires (l_a s) (l_b s) (l_c s)) (lc_number (l_lcs s) q)) (length (l_lcs s))
        = sum_q (fun q => fpow y q [*] input_at (l_inputs s) (l_values s) q) (length (l_lcs s))).
      { unfold sum_q. apply fsum_ext. intros i Hi. f_equal. apply (fsub_zero OL). apply H2. lia. }
      rewrite E. ring.
    - symmetry. unfold sum_q. apply (fsum_zero OL). intros i Hi. rewrite H1 by lia. ring.
  Qed.
  (** equality at more points than 2 n + Q *)
  Lemma constant_satisfied n (s : layout F) (ys : list F) : lay_ok s -> l_gates s <= n -> NoDup ys -> 2 * n + length (l_lcs s) < length ys ->
    (forall y, In y ys -> exists yi, y [*] yi = fone /\ constant_value n s y yi = fpow y n [*] k_value (l_inputs s) (l_values s) (length (l_lcs s)) y) -> satisfied s.
  Proof.
    intros HL HN HD HQ H. apply (satisfied_error n); [exact HN|]. apply (roots_zero ys HD).
    - unfold error_poly. cbv zeta. rewrite !app_length, rev_length, !map_length, !seq_length. cbn [length]. lia.
    - intros y Hy. destruct (H y Hy) as (yi & Hi & E). rewrite (error_eval n s y yi HL HN Hi), E. ring.
  Qed.
End Identity.
