(** The prover's polynomials for a circuit, and the deferred check. *)
From Coq Require Import ZArith String List Bool Arith Lia Ring Field.
From Verif Require Import Model.FieldTrait Model.Circuits Model.Synthesis Model.Dev Model.Curve Model.Threads Model.Util
  Model.Params Model.Opening Model.Proofs Spec.FieldLaws Spec.CircuitSpec Spec.CurveSpec Spec.CurveLaws Spec.UtilSpec Spec.SystemSpec
  Proofs.FieldGen Proofs.ZtoF Proofs.LcP Proofs.SumP Proofs.PolyMulP Proofs.SystemP Proofs.ParamsP Proofs.IdentityP.
Import ListNotations.
Open Scope nat_scope.
Open Scope list_scope.

Section Deferred_.
  Context {F : Field} {p v} (FL : FieldLaws F p v).
  Let OL := fl_ops _ _ _ FL.
  Add Field Ff : (ffield OL).
  Notation "a [+] b" := (fadd a b) (at level 50, left associativity). Notation "a [*] b" := (fmul a b) (at level 40, left associativity).
  Notation "a [-] b" := (fsub a b) (at level 50, left associativity).

  (** *** compute_thing *)
  Lemma thing_loop (x : F) m : forall s e, fold_left (fun '(acc, cur) (_ : nat) => let tmp := acc [*] cur in (acc [+] tmp, fsquare cur)) (seq s m)
      (fsum (fun i => fpow x (S i)) (2 ^ e), fpow x (2 ^ e)) = (fsum (fun i => fpow x (S i)) (2 ^ (e + m)), fpow x (2 ^ (e + m))).
  Proof.
    induction m as [|m IH]; intros s e; cbn [seq fold_left].
    - rewrite Nat.add_0_r. reflexivity.
    - rewrite (fsquare_mul OL), <- (fpow_add OL). replace (2 ^ e + 2 ^ e) with (2 ^ S e) by (cbn [Nat.pow]; lia).
      replace (e + S m) with (S e + m) by lia. rewrite <- (IH (S s) (S e)). f_equal. f_equal.
      replace (2 ^ S e) with (2 ^ e + 2 ^ e) by (cbn [Nat.pow]; lia). rewrite (fsum_app OL). f_equal.
      rewrite <- (fsum_mul_r OL). apply fsum_ext. intros i _. rewrite <- (fpow_add OL). f_equal. lia.
  Qed.
  Lemma compute_thing_eq (x : F) k : compute_thing x k = fsum (fun i => fpow x (S i)) (2 ^ k).
  Proof.
    unfold compute_thing. replace (x, x) with (fsum (fun i => fpow x (S i)) (2 ^ 0), fpow x (2 ^ 0)).
    - rewrite thing_loop. reflexivity.
    - cbn. f_equal; ring.
  Qed.

  (** *** t(X) split at its constant coefficient *)
  Lemma eval_split (t : list F) m x : m < length t ->
    eval_at t x = eval_at (firstn m t) x [+] fpow x m [*] coeff t m [+] fpow x (S m) [*] eval_at (skipn (S m) t) x.
  Proof.
    intro H. rewrite <- (firstn_skipn m t) at 1. rewrite (eval_app OL), firstn_length, Nat.min_l by lia.
    destruct (skipn m t) as [|c l] eqn:E. { apply (f_equal (@length _)) in E. rewrite skipn_length in E. cbn in E. lia. }
    assert (E1 : coeff t m = c).
    { unfold coeff. rewrite <- (firstn_skipn m t), E, app_nth2; rewrite firstn_length, Nat.min_l by lia; [|lia]. rewrite Nat.sub_diag. reflexivity. }
    assert (E2 : skipn (S m) t = l).
    { rewrite <- (firstn_skipn m t), E, skipn_app, skipn_all2 by (rewrite firstn_length; lia). rewrite firstn_length, Nat.min_l by lia.
      replace (S m - m) with 1 by lia. reflexivity. }
    rewrite E1, E2, (eval_cons OL). cbn [fpow]. ring.
  Qed.

  Lemma fpow_inv (x xi : F) n : x [*] xi = fone -> fpow x n [*] fpow xi n = fone.
  Proof. intro H. rewrite <- (fpow_distr OL), H. apply (fpow_one OL). Qed.
  Lemma inv_neq (x xi : F) : x [*] xi = fone -> x <> fzero.
  Proof. intros H E. apply (fone_neq_zero OL). rewrite <- H, E. ring. Qed.
  Lemma pow4_div k : 2 <= k -> 2 ^ k / 4 = 2 ^ (k - 2) /\ 2 ^ k = 4 * 2 ^ (k - 2).
  Proof.
    intro H. assert (E : 2 ^ k = 2 ^ (k - 2) * 4). { replace k with (k - 2 + 2) at 1 by lia. rewrite Nat.pow_add_r. reflexivity. }
    split; [rewrite E; apply Nat.div_mul; lia|lia].
  Qed.

  (** What the verifier of a deferred value computes: the difference of the two
      sides is the constant coefficient minus y^n k(y). *)
  Lemma deferred_compute_eq k n a b c u w z x xi y yi rp (D : Deferred F) :
    2 <= k -> n = 2 ^ (k - 2) -> (Z.of_nat (7 * n + 1) <= 2 ^ 31)%Z ->
    length a = n -> length b = n -> length c = n -> length u = n -> length w = n -> length z = n ->
    x [*] xi = fone -> y [*] yi = fone -> prime_poly n (rx_vec a b c) (sx_vec0 u w z) y yi = Some rp ->
    let rx := rx_vec a b c in let tx := map (product_coeff rx rp) (seq 0 (7 * n + 1)) in
    d_x D = x -> d_y_cur D = y ->
    d_tx_positive_opening D = eval_at (skipn (4 * n + 1) tx) x -> d_tx_negative_opening D = eval_at (firstn (4 * n) tx) x ->
    d_sx_cur_opening D = eval_at (sx_vec0 u w z) x ->
    d_rx_opening D = eval_at rx x [*] fpow x (n - 1) -> d_rxy_opening D = eval_at rx (x [*] y) [*] fpow (x [*] y) (n - 1) ->
    exists lhs rhs, deferred_compute D k = Some (lhs, rhs) /\
      lhs [-] rhs = product_coeff rx rp (4 * n) [-] fpow y n [*] d_ky_opening D.
  Proof.
    intros Hk Hn HB Ha Hb Hc Hu Hw Hz Hx Hy HP rx tx EX EY Etp Etn Es Er Erxy.
    pose proof (pow4_div k Hk) as [HD HD2]. rewrite <- Hn in HD, HD2.
    assert (Hn1 : 1 <= n) by (subst n; pose proof (Nat.pow_nonzero 2 (k - 2)); lia).
    assert (HZn : (Z.of_nat n < 2 ^ 64)%Z) by lia.
    assert (HZ3 : (Z.of_nat (3 * n - 1) < 2 ^ 64)%Z) by lia.
    unfold deferred_compute. rewrite EX, EY.
    destruct (feqb x fzero) eqn:E0. { apply (feqb_eq OL) in E0. destruct (inv_neq x xi Hx E0). }
    destruct (feqb y fzero) eqn:E1. { apply (feqb_eq OL) in E1. destruct (inv_neq y yi Hy E1). }
    rewrite HD, (finvert_eq FL x xi Hx), (finvert_eq FL y yi Hy). cbn [obind].
    unfold usize_sub. rewrite (proj2 (Nat.leb_le _ _)) by lia. cbn [obind]. rewrite (proj2 (Nat.leb_le _ _)) by lia. cbn [obind].
    eexists. eexists. split; [reflexivity|].
    rewrite !(pow64 OL) by assumption. rewrite !compute_thing_eq, <- Hn, Etp, Etn, Es, Er, Erxy, !(fsquare_mul OL).
    assert (Lrp : length rp = 4 * n + 1).
    { destruct (constant_coeff OL n a b c u w z y yi Ha Hb Hc Hu Hw Hz HZn Hy) as (rp' & E & L & _). congruence. }
    assert (Lrx : length rx = 3 * n + 1) by (apply rx_length; assumption).
    assert (Lt : length tx = 7 * n + 1) by (unfold tx; rewrite map_length, seq_length; reflexivity).
    assert (Et : eval_at tx x = eval_at rx x [*] eval_at rp x).
    { rewrite <- (eval_product FL rx rp (7 * n + 1) x) by lia. unfold eval_at at 1. rewrite Lt. apply fsum_ext. intros i Hi. unfold tx.
      rewrite (coeff_map_seq (product_coeff rx rp)) by exact Hi. reflexivity. }
    rewrite (eval_split tx (4 * n)) in Et by lia.
    replace (coeff tx (4 * n)) with (product_coeff rx rp (4 * n)) in Et by (unfold tx; rewrite coeff_map_seq by lia; reflexivity).
    replace (S (4 * n)) with (4 * n + 1) in Et by lia.
    pose proof (prime_eval OL n a b c u w z y yi x rp Ha Hb Hc Hu Hw Hz HZn Hy HP) as Ep. fold rx in Ep. rewrite Ep in Et. clear Ep.
    set (T := eval_at (firstn (4 * n) tx) x) in *. set (K := product_coeff rx rp (4 * n)) in *. set (U := eval_at (skipn (4 * n + 1) tx) x) in *.
    set (R := eval_at rx x) in *. set (RY := eval_at rx (x [*] y)) in *. set (SX := eval_at (sx_vec0 u w z) x) in *.
    set (S1 := fsum (fun i => fpow (x [*] y) (S i)) n) in *. set (S2 := fsum (fun i => fpow (x [*] yi) (S i)) n) in *.
    pose proof (fpow_inv x xi n Hx) as Pn. pose proof (fpow_inv y yi n Hy) as Qn.
    pose proof (fpow_inv x xi (n - 1) Hx) as Pn1. pose proof (fpow_inv y yi (n - 1) Hy) as Qn1.
    (* powers in terms of those of n and n - 1 *)
    replace (3 * n - 1) with (n - 1 + (n + n)) by lia. rewrite (fpow_add OL (xi [*] yi) (n - 1) (n + n)), (fpow_add OL (xi [*] yi) n n), !(fpow_distr OL).
    replace (4 * n + 1) with (n + n + (n + n) + 1) in Et by lia. replace (4 * n) with (n + n + (n + n)) in Et by lia.
    replace (3 * n) with (n + n + n) in Et by lia. replace (2 * n) with (n + n) in Et by lia.
    rewrite !(fpow_add OL), (fpow_1 OL) in Et.
    assert (EX1 : fpow x n = x [*] fpow x (n - 1)). { replace n with (S (n - 1)) at 1 by lia. reflexivity. }
    assert (EXI1 : fpow xi n = xi [*] fpow xi (n - 1)). { replace n with (S (n - 1)) at 1 by lia. reflexivity. }
    set (X := fpow x n) in *. set (XI := fpow xi n) in *. set (Y := fpow y n) in *. set (YI := fpow yi n) in *.
    set (X1 := fpow x (n - 1)) in *. set (XI1 := fpow xi (n - 1)) in *. set (Y1 := fpow y (n - 1)) in *. set (YI1 := fpow yi (n - 1)) in *.
    clearbody T K U R RY SX S1 S2 X XI Y YI X1 XI1 Y1 YI1. clear - FL OL Et Pn Qn Pn1 Qn1 EX1 EXI1 Hx Hy.
    (* eliminate the inverses *)
    assert (A1 : X1 [*] (XI [*] XI [*] XI [*] x) = XI [*] XI).
    { transitivity (XI [*] XI [*] (XI [*] (x [*] X1))); [ring|]. rewrite <- EX1. transitivity (XI [*] XI [*] (X [*] XI)); [ring|]. rewrite Pn. ring. }
    assert (A2 : X1 [*] Y1 [*] (XI1 [*] YI1 [*] (XI [*] YI [*] (XI [*] YI))) = XI [*] XI [*] YI [*] YI).
    { transitivity ((X1 [*] XI1) [*] (Y1 [*] YI1) [*] (XI [*] XI [*] YI [*] YI)); [ring|]. rewrite Pn1, Qn1. ring. }
    assert (G : forall lhs rhs : F, X [*] X [*] X [*] X [*] (lhs [-] rhs) = fzero -> lhs = rhs).
    { intros lhs rhs E. apply (fsub_zero OL). assert (HXn : X <> fzero) by (exact (inv_neq X XI Pn)).
      repeat (match type of E with fmul ?p ?q = fzero => apply (fmul_zero OL) in E; destruct E as [E|E] end);
      try exact E; try (exfalso; revert E; assumption);
      repeat (match type of E with fmul ?p ?q = fzero => apply (fmul_zero OL) in E; destruct E as [E|E] end); try contradiction. }
    apply G.
    assert (M2 : X [*] X [*] (XI [*] XI) = fone). { transitivity ((X [*] XI) [*] (X [*] XI)); [ring|]. rewrite Pn. ring. }
    assert (EL : (SX [*] XI [*] Y [-] (S1 [+] S2) [*] X [+] RY [*] (X1 [*] Y1) [*] (XI1 [*] YI1 [*] (XI [*] YI [*] (XI [*] YI)))) [*] (R [*] X1 [*] (XI [*] XI [*] XI [*] x))
       = (SX [*] XI [*] Y [-] (S1 [+] S2) [*] X [+] RY [*] (XI [*] XI [*] YI [*] YI)) [*] (R [*] (XI [*] XI))).
    { transitivity ((SX [*] XI [*] Y [-] (S1 [+] S2) [*] X [+] RY [*] (X1 [*] Y1 [*] (XI1 [*] YI1 [*] (XI [*] YI [*] (XI [*] YI))))) [*] (R [*] (X1 [*] (XI [*] XI [*] XI [*] x)))); [ring|].
      rewrite A1, A2. reflexivity. }
    assert (EM : X [*] X [*] X [*] X [*] ((SX [*] XI [*] Y [-] (S1 [+] S2) [*] X [+] RY [*] (XI [*] XI [*] YI [*] YI)) [*] (R [*] (XI [*] XI)))
       = R [*] (YI [*] YI [*] RY [+] X [*] (Y [*] SX) [-] X [*] X [*] X [*] (S1 [+] S2))).
    { transitivity ((X [*] X [*] (XI [*] XI)) [*] (R [*] ((X [*] XI) [*] X [*] SX [*] Y [-] (S1 [+] S2) [*] X [*] X [*] X [+] RY [*] (X [*] X [*] (XI [*] XI)) [*] (YI [*] YI)))); [ring|].
      rewrite M2, Pn. ring. }
    transitivity (X [*] X [*] X [*] X [*] ((SX [*] XI [*] Y [-] (S1 [+] S2) [*] X [+] RY [*] (X1 [*] Y1) [*] (XI1 [*] YI1 [*] (XI [*] YI [*] (XI [*] YI)))) [*] (R [*] X1 [*] (XI [*] XI [*] XI [*] x)))
      [-] X [*] X [*] X [*] X [*] (U [*] x) [-] T [*] ((X [*] X [*] (XI [*] XI)) [*] (X [*] X [*] (XI [*] XI))) [-] X [*] X [*] X [*] X [*] K); [ring|].
    rewrite EL, EM, M2, <- Et. ring.
  Qed.
End Deferred_.

Section Circuit_.
  Context {C : Curve} {q vb r vs} (CL : CurveLaws C q vb r vs).
  Let SL := cl_scalar _ _ _ _ _ CL.
  Let SO := fl_ops _ _ _ SL.
  Add Field Fs : (ffield SO).

  Lemma wire_resize (l : list (Scalar C)) n i : length l <= n -> wire (resize l n) i = wire l i.
  Proof. intro H. unfold wire. apply resize_nth, H. Qed.
  Lemma prover_polys M (P : Params C) circuit s t (y yi : Scalar C) : machine_ok M -> laid_out true circuit s -> laid_out false circuit t -> same_system s t ->
    l_gates s <= p_n P -> (Z.of_nat (7 * p_n P + 1) <= 2 ^ 31)%Z -> fmul y yi = fone ->
    let n := p_n P in
    let rx := rx_vec (resize (l_a s) n) (resize (l_b s) n) (resize (l_c s) n) in
    exists u w z rp, let sx := sx_vec0 u w z in
      length u = n /\ length w = n /\ length z = n /\
      compute_sx P circuit y = Done (Ok sx) /\ prime_poly n rx sx y yi = Some rp /\ length rp = 4 * n + 1 /\
      multiply_polynomials M rx rp = Some (map (product_coeff rx rp) (seq 0 (7 * n + 1))) /\
      product_coeff rx rp (4 * n) = constant_value n s y yi.
  Proof.
    intros HM HT HF (EG & EL & EI) HN HB Hy. cbv zeta. set (n := p_n P) in *.
    destruct (laid_out_ok _ _ _ HT) as (OK & _ & _).
    destruct (compute_sx_eq CL P circuit t y HF) as (u & w & z & E & Hu & Hw & Hz & HTot). fold n in E.
    exists (resize u n), (resize w n), (resize z n).
    assert (HZ : (Z.of_nat n < 2 ^ 64)%Z) by lia.
    destruct (constant_coeff SO n (resize (l_a s) n) (resize (l_b s) n) (resize (l_c s) n) (resize u n) (resize w n) (resize z n) y yi) as (rp & EP & LP & EC);
      try apply resize_len; try assumption.
    exists rp. rewrite !resize_len. repeat (split; [reflexivity|]). split; [exact E|]. split; [exact EP|]. split; [exact LP|].
    assert (Lx : length (rx_vec (resize (l_a s) n) (resize (l_b s) n) (resize (l_c s) n)) = 3 * n + 1) by (apply rx_length; apply resize_len).
    split.
    - rewrite (multiply_polynomials_eq SL) by (try exact HM; rewrite ?Lx, ?LP; lia). rewrite Lx, LP. do 3 f_equal. lia.
    - rewrite EC. unfold constant_value. rewrite EL in *. pose proof (lo_a _ OK) as La. pose proof (lo_b _ OK) as Lb. pose proof (lo_c _ OK) as Lc. f_equal.
      + unfold sum_q. rewrite (fsum_pad SO _ (l_gates s)); [|exact HN|].
        * apply fsum_ext. intros i Hi. unfold gate_error. unfold coeff. rewrite !resize_nth by lia. unfold wire. rewrite !Nat.sub_succ, !Nat.sub_0_r. reflexivity.
        * intros i Hi. unfold coeff. rewrite !resize_nth by lia. rewrite !nth_overflow by lia. ring.
      + f_equal. fold (s_sum (l_lcs t) y (wires (l_a s) (l_b s) (l_c s))). rewrite <- HTot. unfold total.
        assert (ED : forall l m : list (Scalar C), length l <= n -> length m <= n -> dot (resize l n) (resize m n) = lin m (wire l)).
        { intros l m Hl Hm. rewrite (dot_comm SO) by (rewrite !resize_len; reflexivity). rewrite dot_lin, (lin_resize SO) by exact Hm.
          apply lin_ext. intros i _. apply wire_resize, Hl. }
        rewrite !ED by lia. reflexivity.
  Qed.
End Circuit_.
