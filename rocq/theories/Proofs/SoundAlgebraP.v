(** The polynomial identity for a dishonest prover: the polynomials behind its
    commitments have arbitrary coefficients. *)
From Coq Require Import ZArith String List Bool Arith Lia Ring Field.
From Verif Require Import Model.FieldTrait Model.Circuits Model.Util Model.Opening Model.Proofs
  Spec.FieldLaws Spec.CircuitSpec Spec.UtilSpec Spec.SystemSpec
  Proofs.FieldGen Proofs.SumP Proofs.PolyMulP Proofs.ParamsP Proofs.IdentityP.
Import ListNotations.
Open Scope nat_scope.
Open Scope list_scope.

Section Algebra.
  Context {F : Field} {p v} (FL : FieldLaws F p v).
  Let OL := fl_ops _ _ _ FL.
  Add Field Ff : (ffield OL).
  Notation "a [+] b" := (fadd a b) (at level 50, left associativity). Notation "a [*] b" := (fmul a b) (at level 40, left associativity).
  Notation "a [-] b" := (fsub a b) (at level 50, left associativity).
  Ltac len := repeat (rewrite ?app_length, ?rev_length, ?scale_geo_length, ?sub_geo_length, ?repeat_length, ?map_length, ?add_zip_length; cbn [length]); try lia.

  Lemma coeff_add_zip (a : list F) : forall b i, length a = length b -> coeff (add_zip a b) i = coeff a i [+] coeff b i.
  Proof.
    unfold coeff. induction a as [|x a IH]; intros [|y b] i H; cbn [length] in H; try discriminate H.
    - destruct i; cbn; ring.
    - destruct i as [|i]; cbn [add_zip nth]; [reflexivity|]. apply IH. congruence.
  Qed.
  Lemma product_add (a b1 b2 : list F) k : length b1 = length b2 -> product_coeff a (add_zip b1 b2) k = product_coeff a b1 k [+] product_coeff a b2 k.
  Proof.
    intro H. unfold product_coeff. rewrite <- (fsum_add OL). apply fsum_ext. intros i _. rewrite coeff_add_zip by exact H. ring.
  Qed.
  Lemma fpow_inv (x xi : F) m : x [*] xi = fone -> fpow x m [*] fpow xi m = fone.
  Proof. intro H. rewrite <- (fpow_distr OL), H. apply (fpow_one OL). Qed.
  Lemma rev_repeat (x : F) m : rev (repeat x m) = repeat x m.
  Proof.
    induction m as [|m IH]; [reflexivity|]. cbn [repeat rev]. rewrite IH. clear IH. induction m as [|m IH]; [reflexivity|]. cbn [repeat app]. rewrite IH. reflexivity.
  Qed.

  (** r(X, y) + s'(X, y), times X^(3n-1), where r(X, 1) X^(3n-1) has the coefficients V *)
  Definition bracket1 (n : nat) (V : list F) (y yi : F) : list F := scale_geo V (fpow yi (3 * n - 1)) y ++ repeat fzero (2 * n - 1).
  Definition bracket2 (n : nat) (sx : list F) (y : F) : list F := repeat fzero (2 * n - 1) ++ map (fun t => t [*] fpow y n) sx ++ repeat fzero (n - 1).
  Definition bracket3 (n : nat) (y yi : F) : list F := repeat fzero (4 * n) ++ sub_geo (repeat fzero n) y yi y yi ++ repeat fzero (n - 1).
  Definition bracket (n : nat) (V sx : list F) (y yi : F) : list F :=
    add_zip (bracket1 n V y yi) (add_zip (bracket2 n sx y) (bracket3 n y yi)).
  Lemma bracket_lengths n V sx y yi : 1 <= n -> length V = 4 * n -> length sx = 3 * n + 1 ->
    length (bracket1 n V y yi) = 6 * n - 1 /\ length (bracket2 n sx y) = 6 * n - 1 /\ length (bracket3 n y yi) = 6 * n - 1 /\ length (bracket n V sx y yi) = 6 * n - 1.
  Proof. intros Hn HV HS. unfold bracket, bracket1, bracket2, bracket3. repeat split; len. Qed.
  Lemma bracket_eval n V sx y yi x xi : 1 <= n -> length V = 4 * n -> length sx = 3 * n + 1 -> x [*] xi = fone ->
    eval_at (bracket n V sx y yi) x = fpow x (3 * n - 1) [*]
      (eval_at V (x [*] y) [*] fpow (xi [*] yi) (3 * n - 1) [+]
        (eval_at sx x [*] fpow xi n [*] fpow y n [-] fpow x n [*] sum_q (fun i => fpow (x [*] y) i [+] fpow (x [*] yi) i) n)).
  Proof.
    intros Hn HV HS Hx. destruct (bracket_lengths n V sx y yi Hn HV HS) as (L1 & L2 & L3 & _).
    unfold bracket. rewrite !(IdentityP.eval_add_zip OL) by (rewrite ?add_zip_length; lia).
    unfold bracket1, bracket2, bracket3. rewrite !(eval_app OL), !(eval_repeat OL), !(eval_map_mul OL), (eval_scale_geo OL), (eval_sub_geo OL), !repeat_length, (eval_repeat OL).
    assert (ES : sum_q (fun i => fpow (x [*] y) i [+] fpow (x [*] yi) i) n = x [*] (y [*] fsum (fpow (x [*] y)) n [+] yi [*] fsum (fpow (x [*] yi)) n)).
    { unfold sum_q. rewrite (fsum_add OL). cbn [fpow]. rewrite !(fsum_mul_l OL). ring. }
    rewrite ES, (fpow_distr OL xi yi).
    assert (E1 : fpow x (3 * n - 1) [*] fpow xi (3 * n - 1) = fone) by (apply fpow_inv, Hx).
    assert (E2 : fpow x (3 * n - 1) [*] fpow xi n = fpow x (2 * n - 1)).
    { replace (3 * n - 1) with ((2 * n - 1) + n) by lia. rewrite (fpow_add OL).
      transitivity (fpow x (2 * n - 1) [*] (fpow x n [*] fpow xi n)); [ring|]. rewrite (fpow_inv x xi n Hx). ring. }
    assert (E3 : fpow x (4 * n) = fpow x (3 * n - 1) [*] fpow x n [*] x).
    { replace (4 * n) with (S ((3 * n - 1) + n)) by lia. cbn [fpow]. rewrite (fpow_add OL). ring. }
    rewrite E3.
    match goal with |- _ = ?X [*] (?a [*] (?b [*] ?c) [+] (?d [*] ?e [*] ?f [-] ?g)) =>
      transitivity ((X [*] b) [*] a [*] c [+] ((X [*] e) [*] d [*] f [-] X [*] g)); [rewrite E1, E2|]; ring end.
  Qed.

  (** the constant coefficient: the part V_0 of the left wires at X^0 enters with its square *)
  Section Constant.
    Variables (n : nat) (J a b c u w z : list F) (r0 y yi : F).
    Hypothesis (Hn : 1 <= n) (HJ : length J = n - 1) (Ha : length a = n) (Hb : length b = n) (Hc : length c = n)
      (Hu : length u = n) (Hw : length w = n) (Hz : length z = n) (Hy : y [*] yi = fone).
    Let V := J ++ rev c ++ rev b ++ [r0] ++ a.
    Lemma HV : length V = 4 * n. Proof. unfold V. len. Qed.
    Lemma constant1 : product_coeff V (bracket1 n V y yi) (6 * n - 2) =
      fsum (fun i => coeff b i [*] coeff a i [*] fpow y (S i)) n [+] (r0 [*] r0 [+] fsum (fun i => coeff a i [*] coeff b i [*] fpow yi (S i)) n).
    Proof.
      pose proof HV as LV.
      destruct (bracket_lengths n V (repeat fzero (3 * n + 1)) y yi Hn LV ltac:(len)) as (L1 & _).
      replace (6 * n - 2) with (length (bracket1 n V y yi) - 1) by lia. rewrite (product_top OL) by lia.
      unfold bracket1. rewrite rev_app_distr, rev_repeat.
      assert (ES : scale_geo V (fpow yi (3 * n - 1)) y = scale_geo (J ++ rev c) (fpow yi (3 * n - 1)) y ++ rev (scale_geo b yi yi) ++ [r0] ++ scale_geo a y y).
      { unfold V. rewrite (app_assoc J). rewrite !(scale_geo_app OL).
        set (c1 := fpow yi (3 * n - 1) [*] fpow y (length (J ++ rev c))).
        assert (E1 : c1 = fpow yi n).
        { unfold c1. replace (length (J ++ rev c)) with (2 * n - 1) by len. replace (3 * n - 1) with ((2 * n - 1) + n) by lia. rewrite (fpow_add OL).
          transitivity (fpow yi n [*] (fpow y (2 * n - 1) [*] fpow yi (2 * n - 1))); [ring|]. rewrite (fpow_inv y yi _ Hy). ring. }
        assert (E2 : c1 [*] fpow y (length (rev b)) = fone).
        { rewrite rev_length, Hb, E1. transitivity (fpow y n [*] fpow yi n); [ring|]. apply fpow_inv, Hy. }
        assert (E3 : scale_geo (rev b) c1 y = rev (scale_geo b yi yi)).
        { rewrite E1. pose proof (rev_scale_geo OL b yi y fone ltac:(rewrite <- Hy; ring)) as X. rewrite Hb in X.
          replace (fone [*] fpow yi n) with (fpow yi n) in X by ring. replace (fone [*] yi) with yi in X by ring. rewrite <- X, rev_involutive. reflexivity. }
        rewrite E2, E3. f_equal. f_equal. cbn [app scale_geo length fpow]. f_equal; [ring|f_equal; ring]. }
      rewrite ES. clear ES L1. unfold V at 1. rewrite !rev_app_distr, rev_involutive.
      replace (repeat fzero (2 * n - 1)) with (repeat (@fzero F) (n - 1) ++ repeat fzero n) by (rewrite <- repeat_app; f_equal; lia).
      rewrite <- !app_assoc. rewrite !(dot_app OL) by (rewrite ?rev_length, ?repeat_length, ?scale_geo_length; cbn [rev app length]; lia).
      rewrite (dot_app_l) by (rewrite scale_geo_length; lia).
      rewrite !(dot_zero_r OL), (dot_rev OL) by (rewrite scale_geo_length; lia). rewrite (dot_scale_geo OL n) by exact Hb. rewrite (dot_scale_geo OL n) by exact Ha.
      cbn [rev app]. rewrite (dot_cons OL), dot_nil. ring.
    Qed.
    Lemma constant2 : product_coeff V (bracket2 n (rev u ++ [fzero] ++ w ++ z) y) (6 * n - 2) = fpow y n [*] (dot a u [+] dot b w [+] dot c z).
    Proof.
      pose proof HV as LV.
      destruct (bracket_lengths n V (rev u ++ [fzero] ++ w ++ z) y yi Hn LV ltac:(len)) as (_ & L1 & _).
      replace (6 * n - 2) with (length (bracket2 n (rev u ++ [fzero] ++ w ++ z) y) - 1) by lia. rewrite (product_top OL) by lia.
      unfold bracket2, V. rewrite !map_app, !rev_app_distr, !rev_repeat, !map_rev, rev_involutive.
      rewrite <- !app_assoc. rewrite !(dot_app OL) by (rewrite ?rev_length, ?repeat_length, ?map_length; cbn [rev map app length]; lia).
      rewrite dot_app_l by (rewrite map_length; lia).
      rewrite !(dot_zero_r OL), !(dot_map_mul OL), !(dot_rev OL) by (rewrite ?map_length; lia). rewrite !(dot_map_mul OL).
      cbn [map rev app]. rewrite (dot_cons OL), dot_nil. ring.
    Qed.
    Lemma constant3 : product_coeff V (bracket3 n y yi) (6 * n - 2) = fzero [-] fsum (fun i => coeff c i [*] (fpow y (S i) [+] fpow yi (S i))) n.
    Proof.
      pose proof HV as LV.
      destruct (bracket_lengths n V (repeat fzero (3 * n + 1)) y yi Hn LV ltac:(len)) as (_ & _ & L1 & _).
      replace (6 * n - 2) with (length (bracket3 n y yi) - 1) by lia. rewrite (product_top OL) by lia.
      unfold bracket3, V. rewrite !rev_app_distr, !rev_repeat.
      rewrite <- !app_assoc. rewrite !(dot_app OL) by (rewrite ?rev_length, ?repeat_length, ?sub_geo_length, ?repeat_length; cbn [rev map app length]; lia).
      rewrite !(dot_zero_r OL), !(dot_rev OL) by (rewrite sub_geo_length, repeat_length; lia).
      assert (ES : dot c (sub_geo (repeat fzero n) y yi y yi) = fzero [-] fsum (fun i => coeff c i [*] (fpow y (S i) [+] fpow yi (S i))) n).
      { unfold dot. rewrite Hc. transitivity (fsum (fun _ => fzero) n [-] fsum (fun i => coeff c i [*] (fpow y (S i) [+] fpow yi (S i))) n); [|rewrite (fsum_zero OL (fun _ => fzero)) by reflexivity; reflexivity]. rewrite <- (fsum_sub OL). apply fsum_ext. intros i Hi.
        rewrite (coeff_sub_geo OL) by (rewrite repeat_length; exact Hi). unfold coeff. rewrite nth_repeat. cbn [fpow]. ring. }
      rewrite ES. ring.
    Qed.
    Lemma constant_any : product_coeff V (bracket n V (rev u ++ [fzero] ++ w ++ z) y yi) (6 * n - 2) =
      fsum (fun i => (coeff a i [*] coeff b i [-] coeff c i) [*] (fpow y (S i) [+] fpow yi (S i))) n [+] r0 [*] r0
      [+] fpow y n [*] (dot a u [+] dot b w [+] dot c z).
    Proof.
      destruct (bracket_lengths n V (rev u ++ [fzero] ++ w ++ z) y yi Hn HV ltac:(len)) as (L1 & L2 & L3 & _).
      unfold bracket. rewrite !product_add by (rewrite ?add_zip_length; lia). rewrite constant1, constant2, constant3.
      assert (E2 : fsum (fun i => (coeff a i [*] coeff b i [-] coeff c i) [*] (fpow y (S i) [+] fpow yi (S i))) n =
        fsum (fun i => coeff a i [*] coeff b i [*] fpow yi (S i)) n [+] fsum (fun i => coeff b i [*] coeff a i [*] fpow y (S i)) n
        [-] fsum (fun i => coeff c i [*] (fpow y (S i) [+] fpow yi (S i))) n).
      { rewrite <- (fsum_add OL), <- (fsum_sub OL). apply fsum_ext. intros i _. ring. }
      rewrite E2. ring.
    Qed.
  End Constant.

  (** The equation at more points x than the degree *)
  Definition at_x (n : nat) (V sx tp tn : list F) (y yi ky x xi : F) : Prop :=
    (eval_at V x [*] fpow xi (3 * n - 1)) [*]
      (eval_at V (x [*] y) [*] fpow (xi [*] yi) (3 * n - 1) [+]
        (eval_at sx x [*] fpow xi n [*] fpow y n [-] fpow x n [*] sum_q (fun i => fpow (x [*] y) i [+] fpow (x [*] yi) i) n))
    [-] ky [*] fpow y n = eval_at tp x [*] x [+] eval_at tn x [*] fpow xi (4 * n).
  Definition sides (n : nat) (tp tn : list F) (m : F) : list F := repeat fzero (2 * n - 2) ++ tn ++ [m] ++ tp.
  Lemma at_x_iff n V sx tp tn y yi ky x xi : 1 <= n -> length V = 4 * n -> length sx = 3 * n + 1 -> length tp = 4 * n -> length tn = 4 * n -> x [*] xi = fone ->
    at_x n V sx tp tn y yi ky x xi <-> eval_at V x [*] eval_at (bracket n V sx y yi) x = eval_at (sides n tp tn (ky [*] fpow y n)) x.
  Proof.
    intros Hn HV HS Hp Ht Hx. rewrite (bracket_eval n V sx y yi x xi Hn HV HS Hx). unfold at_x.
    set (BB := _ [+] (_ [-] _)). clearbody BB.
    unfold sides. rewrite !(eval_app OL), (eval_repeat OL), repeat_length, Ht, (eval_cons OL), eval_nil. cbn [length]. rewrite (fpow_1 OL).
    set (X := fpow x (3 * n - 1)). set (Xi := fpow xi (3 * n - 1)).
    assert (E1 : X [*] Xi = fone) by (apply fpow_inv, Hx).
    assert (E2 : X [*] X = fpow x (2 * n - 2) [*] fpow x (4 * n)).
    { unfold X. rewrite <- !(fpow_add OL). f_equal. lia. }
    assert (E3 : X [*] X [*] fpow xi (4 * n) = fpow x (2 * n - 2)).
    { rewrite E2. transitivity (fpow x (2 * n - 2) [*] (fpow x (4 * n) [*] fpow xi (4 * n))); [ring|]. rewrite (fpow_inv x xi _ Hx). ring. }
    assert (EL : eval_at V x [*] (X [*] BB) = X [*] X [*] (eval_at V x [*] Xi [*] BB)).
    { transitivity ((X [*] Xi) [*] (eval_at V x [*] (X [*] BB))); [rewrite E1; ring|ring]. }
    assert (ER : fzero [+] fpow x (2 * n - 2) [*] (eval_at tn x [+] fpow x (4 * n) [*] ((ky [*] fpow y n [+] x [*] fzero) [+] x [*] eval_at tp x))
      = X [*] X [*] (eval_at tp x [*] x [+] eval_at tn x [*] fpow xi (4 * n) [+] ky [*] fpow y n)).
    { transitivity (fpow x (2 * n - 2) [*] eval_at tn x [+] (fpow x (2 * n - 2) [*] fpow x (4 * n)) [*] (ky [*] fpow y n [+] x [*] eval_at tp x)); [ring|].
      rewrite <- E2, <- E3. ring. }
    rewrite ER, EL. set (W := eval_at V x [*] Xi [*] BB). set (Tt := eval_at tp x [*] x [+] eval_at tn x [*] fpow xi (4 * n)). split.
    - intro H. rewrite <- H. ring.
    - intro H. assert (NX : X [*] X <> fzero).
      { intro Z. apply (fone_neq_zero OL). transitivity ((X [*] X) [*] (Xi [*] Xi)); [|rewrite Z; ring]. transitivity ((X [*] Xi) [*] (X [*] Xi)); [rewrite E1; ring|ring]. }
      apply (fmul_cancel_r OL (W [-] ky [*] fpow y n) Tt (X [*] X) NX).
      transitivity (X [*] X [*] W [-] X [*] X [*] (ky [*] fpow y n)); [ring|]. rewrite H. ring.
  Qed.
  Lemma many_x n V sx tp tn y yi ky (xs : list F) : 1 <= n -> length V = 4 * n -> length sx = 3 * n + 1 -> length tp = 4 * n -> length tn = 4 * n ->
    NoDup xs -> 10 * n <= S (length xs) -> (forall x, In x xs -> exists xi, x [*] xi = fone /\ at_x n V sx tp tn y yi ky x xi) ->
    product_coeff V (bracket n V sx y yi) (6 * n - 2) = fpow y n [*] ky.
  Proof.
    intros Hn HV HS Hp Ht HD HL HE. destruct (bracket_lengths n V sx y yi Hn HV HS) as (_ & _ & _ & LB).
    set (B := bracket n V sx y yi) in *. set (T := sides n tp tn (ky [*] fpow y n)).
    assert (LT : length T = 10 * n - 1) by (unfold T, sides; len).
    set (D := map (fun i => product_coeff V B i [-] coeff T i) (seq 0 (10 * n - 1))).
    assert (LD : length D = 10 * n - 1) by (unfold D; rewrite map_length, seq_length; reflexivity).
    assert (Z : Forall (eq fzero) D).
    { apply (roots_zero OL xs HD); [lia|]. intros x Hx. destruct (HE x Hx) as (xi & Hi & E). apply at_x_iff in E; try assumption. fold B T in E.
      unfold eval_at. rewrite LD.
      transitivity (fsum (fun i => product_coeff V B i [*] fpow x i) (10 * n - 1) [-] fsum (fun i => coeff T i [*] fpow x i) (10 * n - 1)).
      - rewrite <- (fsum_sub OL). apply fsum_ext. intros i Hi'. unfold D. rewrite (coeff_map_seq (fun i => product_coeff V B i [-] coeff T i)) by exact Hi'. ring.
      - rewrite (eval_product FL V B) by lia. rewrite <- LT. fold (eval_at T x). rewrite E. ring. }
    assert (X : coeff D (6 * n - 2) = fzero). { symmetry. apply (proj1 (Forall_forall _ _) Z). apply nth_In. lia. }
    unfold D in X. rewrite (coeff_map_seq (fun i => product_coeff V B i [-] coeff T i)) in X by lia. apply (proj1 (fsub_zero OL _ _)) in X. rewrite X.
    unfold T, sides, coeff. rewrite app_nth2 by len. rewrite app_nth2 by (rewrite repeat_length; lia). rewrite repeat_length, Ht.
    replace (6 * n - 2 - (2 * n - 2) - 4 * n) with 0 by lia. cbn [app nth]. ring.
  Qed.

  (** Equality at more than 2n + Q points y *)
  Definition errors (n : nat) (lcs : list (LC F)) (ps : list nat) (vals a b c : list F) (m : F) : list F :=
    let D := map (fun i => coeff a i [*] coeff b i [-] coeff c i) (seq 0 n) in
    rev D ++ [m] ++ D ++ map (fun q => lc_val (wires a b c) (lc_number lcs (S q)) [-] input_at ps vals (S q)) (seq 0 (length lcs)).
  Lemma errors_eval n lcs ps vals a b c m y yi : y [*] yi = fone ->
    eval_at (errors n lcs ps vals a b c m) y = fpow y n [*]
      (fsum (fun i => (coeff a i [*] coeff b i [-] coeff c i) [*] (fpow y (S i) [+] fpow yi (S i))) n [+] m
       [+] fpow y n [*] s_sum lcs y (wires a b c) [-] fpow y n [*] k_value ps vals (length lcs) y).
  Proof.
    intro Hy. unfold errors. set (D := map (fun i => coeff a i [*] coeff b i [-] coeff c i) (seq 0 n)). set (E := map _ (seq 0 (length lcs))).
    assert (LD : length D = n) by (unfold D; rewrite map_length, seq_length; reflexivity).
    cbv zeta. rewrite !(eval_app OL), (eval_rev_lin OL D y yi Hy), rev_length, LD, (eval_cons OL m []), eval_nil. cbn [length]. rewrite (fpow_1 OL).
    assert (ED : forall t, lin D (fpow t) = fsum (fun i => (coeff a i [*] coeff b i [-] coeff c i) [*] fpow t (S i)) n).
    { intro t. unfold lin. rewrite LD. apply fsum_ext. intros i Hi. unfold D. rewrite (coeff_map_seq (fun i => coeff a i [*] coeff b i [-] coeff c i)) by exact Hi. reflexivity. }
    pose proof (lin_eval OL D y) as E1. rewrite ED in E1.
    assert (E2 : y [*] eval_at E y = s_sum lcs y (wires a b c) [-] k_value ps vals (length lcs) y).
    { rewrite <- (lin_eval OL E y). unfold E. rewrite (lin_map_seq (fun q => lc_val (wires a b c) (lc_number lcs q) [-] input_at ps vals q)).
      unfold s_sum, k_value, sum_q. rewrite <- (fsum_sub OL). apply fsum_ext. intros i _. ring. }
    rewrite ED.
    assert (EC : fsum (fun i => (coeff a i [*] coeff b i [-] coeff c i) [*] (fpow y (S i) [+] fpow yi (S i))) n
      = fsum (fun i => (coeff a i [*] coeff b i [-] coeff c i) [*] fpow y (S i)) n [+] fsum (fun i => (coeff a i [*] coeff b i [-] coeff c i) [*] fpow yi (S i)) n).
    { rewrite <- (fsum_add OL). apply fsum_ext. intros i _. ring. }
    rewrite EC.
    transitivity (fpow y n [*] (fsum (fun i => (coeff a i [*] coeff b i [-] coeff c i) [*] fpow yi (S i)) n [+] m [+] (y [*] eval_at D y) [+] fpow y n [*] (y [*] eval_at E y))); [ring|].
    rewrite <- E1, E2. ring.
  Qed.
  Lemma many_y n lcs ps vals a b c m (ys : list F) : NoDup ys -> 2 * n + length lcs < length ys ->
    (forall y, In y ys -> exists yi, y [*] yi = fone /\
       fsum (fun i => (coeff a i [*] coeff b i [-] coeff c i) [*] (fpow y (S i) [+] fpow yi (S i))) n [+] m [+] fpow y n [*] s_sum lcs y (wires a b c)
       = fpow y n [*] k_value ps vals (length lcs) y) ->
    gates_satisfied n a b c /\ lcs_satisfied lcs ps vals a b c.
  Proof.
    intros HD HL HE.
    assert (Z : Forall (eq fzero) (errors n lcs ps vals a b c m)).
    { apply (roots_zero OL ys HD).
      - unfold errors. rewrite !app_length, rev_length, !map_length, !seq_length. cbn [length]. lia.
      - intros y Hy. destruct (HE y Hy) as (yi & Hi & E). rewrite (errors_eval n lcs ps vals a b c m y yi Hi), E. ring. }
    unfold errors in Z. cbv zeta in Z. rewrite !Forall_app in Z. destruct Z as (_ & _ & Z1 & Z2). rewrite Forall_forall in Z1, Z2. split.
    - intros i Hi. apply (fsub_zero OL). symmetry. apply Z1. apply in_map_iff. exists (i - 1). split; [reflexivity|apply in_seq; lia].
    - intros q lc Hlc Hq. assert (q - 1 < length lcs) by (apply nth_error_Some; congruence).
      apply (fsub_zero OL). symmetry. apply Z2. apply in_map_iff. exists (q - 1). split; [|apply in_seq; lia].
      replace (S (q - 1)) with q by lia. unfold lc_number. rewrite (nth_error_nth _ _ _ Hlc). reflexivity.
  Qed.
End Algebra.
