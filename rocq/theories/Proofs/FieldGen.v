(** Consequences of [OpsLaws] used by every generic development: a prime field
    with Leibniz equality, its [ring]/[field] structure and powers. *)
From Coq Require Import ZArith List Lia Znumtheory Field Bool.
From Verif Require Import Lib.ZMod Model.FieldTrait Spec.FieldLaws.
Import ListNotations.
Open Scope Z_scope.

Section Gen.
  Context {F : FieldOps} {p : Z} {v : F -> Z} (OL : OpsLaws F p v).

  Implicit Types a b c r : F.
  Lemma p_pos : 0 < p. Proof. pose proof (ol_odd _ _ _ OL). lia. Qed.
  Lemma v_mod a : v a mod p = v a.
  Proof. apply Z.mod_small, (ol_range _ _ _ OL). Qed.

  Lemma fring : ring_theory (@fzero F) fone fadd fmul fsub fneg eq.
  Proof.
    pose proof p_pos as Hp.
    constructor; intros; apply (ol_inj _ _ _ OL);
      repeat first [rewrite (ol_add _ _ _ OL) | rewrite (ol_mul _ _ _ OL) | rewrite (ol_sub _ _ _ OL)
                   | rewrite (ol_neg _ _ _ OL) | rewrite (ol_zero _ _ _ OL) | rewrite (ol_one _ _ _ OL)];
      repeat first [rewrite Zplus_mod_idemp_l | rewrite Zplus_mod_idemp_r
                   | rewrite Zmult_mod_idemp_l | rewrite Zmult_mod_idemp_r].
    - apply v_mod.
    - f_equal; ring.
    - f_equal; ring.
    - rewrite Z.mul_1_l. apply v_mod.
    - f_equal; ring.
    - f_equal; ring.
    - f_equal; ring.
    - f_equal; ring.
    - rewrite Z.add_opp_diag_r. reflexivity.
  Qed.
  Add Ring FRing : fring.

  Fixpoint powp (a : F) (e : positive) : F :=
    match e with
    | xH => a
    | xO e => let t := powp a e in fmul t t
    | xI e => let t := powp a e in fmul (fmul t t) a
    end.
  (** [zpow a e] is [a] to the power [e] ([e >= 0]). *)
  Definition zpow (a : F) (e : Z) : F :=
    match e with Zpos e => powp a e | _ => fone end.

  Lemma v_powp a e : v (powp a e) = (v a ^ Zpos e) mod p.
  Proof.
    induction e as [e IH|e IH|]; cbn [powp].
    - rewrite !(ol_mul _ _ _ OL), IH. rewrite Zmult_mod_idemp_l, <- Z.mul_assoc, Zmult_mod_idemp_l.
      rewrite Z.mul_comm, <- Z.mul_assoc, Zmult_mod_idemp_l.
      f_equal. rewrite Pos2Z.inj_xI, Z.pow_add_r, Z.pow_1_r by lia.
      replace (2 * Zpos e) with (Zpos e + Zpos e) by ring. rewrite Z.pow_add_r by lia. ring.
    - rewrite (ol_mul _ _ _ OL), IH. rewrite <- Zmult_mod. f_equal.
      rewrite Pos2Z.inj_xO. replace (2 * Zpos e) with (Zpos e + Zpos e) by ring.
      rewrite Z.pow_add_r by lia. reflexivity.
    - rewrite Z.pow_1_r, v_mod. reflexivity.
  Qed.
  Lemma v_zpow a e : 0 <= e -> v (zpow a e) = (v a ^ e) mod p.
  Proof.
    intros He. destruct e as [|e|e]; cbn [zpow]; [|apply v_powp|lia].
    rewrite (ol_one _ _ _ OL), Z.pow_0_r. symmetry. apply Z.mod_small. pose proof (ol_odd _ _ _ OL). lia.
  Qed.
  Lemma zpow_add a i j : 0 <= i -> 0 <= j -> zpow a (i + j) = fmul (zpow a i) (zpow a j).
  Proof.
    intros. apply (ol_inj _ _ _ OL). rewrite (ol_mul _ _ _ OL), !v_zpow by lia.
    rewrite <- Zmult_mod, Z.pow_add_r by lia. reflexivity.
  Qed.
  Lemma zpow_mul a i j : 0 <= i -> 0 <= j -> zpow (zpow a i) j = zpow a (i * j).
  Proof.
    intros. apply (ol_inj _ _ _ OL). rewrite !v_zpow by nia.
    rewrite pow_mod by (pose proof p_pos; lia). rewrite Z.pow_mul_r by lia. reflexivity.
  Qed.
  Lemma zpow_0 a : zpow a 0 = fone. Proof. reflexivity. Qed.
  Lemma zpow_1 a : zpow a 1 = a. Proof. reflexivity. Qed.
  Lemma zpow_2 a : zpow a 2 = fmul a a. Proof. reflexivity. Qed.
  Lemma zpow_succ a i : 0 <= i -> zpow a (Z.succ i) = fmul a (zpow a i).
  Proof. intros. unfold Z.succ. rewrite zpow_add, zpow_1 by lia. ring. Qed.
  Lemma zpow_distr a b i : 0 <= i -> zpow (fmul a b) i = fmul (zpow a i) (zpow b i).
  Proof.
    intros. apply (ol_inj _ _ _ OL). rewrite (ol_mul _ _ _ OL), !v_zpow, (ol_mul _ _ _ OL) by lia.
    rewrite pow_mod by (pose proof p_pos; lia). rewrite <- Zmult_mod, Z.pow_mul_l. reflexivity.
  Qed.
  Lemma zpow_one i : 0 <= i -> zpow fone i = fone.
  Proof.
    intros. apply (ol_inj _ _ _ OL). rewrite v_zpow, (ol_one _ _ _ OL), Z.pow_1_l by lia.
    apply Z.mod_small. pose proof (ol_odd _ _ _ OL). lia.
  Qed.
  Lemma zpow_zero i : 0 < i -> zpow fzero i = fzero.
  Proof.
    intros. apply (ol_inj _ _ _ OL). rewrite v_zpow, (ol_zero _ _ _ OL), Z.pow_0_l by lia. reflexivity.
  Qed.

  Lemma v_eq_zero a : v a = 0 <-> a = fzero.
  Proof.
    split; [|intros ->; apply (ol_zero _ _ _ OL)].
    intros H. apply (ol_inj _ _ _ OL). rewrite H, (ol_zero _ _ _ OL). reflexivity.
  Qed.
  Lemma feqb_eq a b : feqb a b = true <-> a = b.
  Proof.
    rewrite (ol_eqb _ _ _ OL). split; [apply (ol_inj _ _ _ OL)|congruence].
  Qed.
  Lemma feqb_spec a b : reflect (a = b) (feqb a b).
  Proof. apply iff_reflect. symmetry. apply feqb_eq. Qed.
  Lemma feqb_refl a : feqb a a = true. Proof. apply feqb_eq. reflexivity. Qed.
  Lemma fsquare_mul a : fsquare a = fmul a a.
  Proof. apply (ol_inj _ _ _ OL). rewrite (ol_square _ _ _ OL), (ol_mul _ _ _ OL). reflexivity. Qed.
  Lemma feq_dec (a b : F) : {a = b} + {a <> b}.
  Proof. destruct (feqb_spec a b); [left|right]; assumption. Qed.

  Lemma fermat a : a <> fzero -> zpow a (p - 1) = fone.
  Proof.
    intros H. apply (ol_inj _ _ _ OL). pose proof (ol_odd _ _ _ OL).
    rewrite v_zpow, (ol_one _ _ _ OL) by lia.
    apply fermat_little; [apply OL|]. rewrite v_mod. intros E. apply H. apply v_eq_zero. exact E.
  Qed.

  (** The inverse, as the power [p - 2]. *)
  Definition finv (a : F) : F := zpow a (p - 2).
  Definition fdiv (a b : F) : F := fmul a (finv b).
  Lemma finv_l a : a <> fzero -> fmul (finv a) a = fone.
  Proof.
    intros H. pose proof (ol_odd _ _ _ OL). unfold finv.
    rewrite <- (zpow_1 a) at 2. rewrite <- zpow_add by lia.
    replace (p - 2 + 1) with (p - 1) by ring. apply fermat, H.
  Qed.
  Lemma fone_neq_zero : @fone F <> fzero.
  Proof. intros E. apply (f_equal v) in E. rewrite (ol_one _ _ _ OL), (ol_zero _ _ _ OL) in E. discriminate. Qed.
  Lemma ffield : field_theory (@fzero F) fone fadd fmul fsub fneg fdiv finv eq.
  Proof.
    constructor; [exact fring|exact fone_neq_zero|reflexivity|exact finv_l].
  Qed.
  Add Field FField : ffield.

  Lemma fmul_zero a b : fmul a b = fzero -> a = fzero \/ b = fzero.
  Proof.
    intros H. apply (f_equal v) in H. rewrite (ol_mul _ _ _ OL), (ol_zero _ _ _ OL) in H.
    apply prime_mul_zero in H; [|apply OL]. rewrite !v_mod in H.
    destruct H as [H|H]; [left|right]; apply v_eq_zero, H.
  Qed.
  Lemma fsub_zero a b : fsub a b = fzero <-> a = b.
  Proof.
    split; [|intros ->; ring]. intros H.
    replace a with (fadd (fsub a b) b) by ring. rewrite H. ring.
  Qed.
  Lemma fmul_cancel_r a b c : c <> fzero -> fmul a c = fmul b c -> a = b.
  Proof.
    intros Hc H. assert (E : fmul (fsub a b) c = fzero) by (replace (fmul (fsub a b) c) with (fsub (fmul a c) (fmul b c)) by ring; rewrite H; ring).
    apply fmul_zero in E. destruct E as [E|E]; [|contradiction]. apply fsub_zero, E.
  Qed.
  Lemma square_eq a b : fmul a a = fmul b b -> a = b \/ a = fneg b.
  Proof.
    intros H. assert (E : fmul (fsub a b) (fadd a b) = fzero).
    { replace (fmul (fsub a b) (fadd a b)) with (fsub (fmul a a) (fmul b b)) by ring. rewrite H. ring. }
    apply fmul_zero in E. destruct E as [E|E].
    - left. apply fsub_zero, E.
    - right. replace a with (fsub (fadd a b) b) by ring. rewrite E. ring.
  Qed.
  Lemma square_one a : fmul a a = fone -> a = fone \/ a = fneg fone.
  Proof. intros H. apply square_eq. rewrite H. ring. Qed.
  Lemma neg_one_neq_one : @fneg F fone <> fone.
  Proof.
    intros E. apply (f_equal v) in E. rewrite (ol_neg _ _ _ OL), (ol_one _ _ _ OL) in E.
    pose proof (ol_odd _ _ _ OL).
    replace (- (1)) with (p - 1 + (-1) * p) in E by ring. rewrite Z_mod_plus_full, Z.mod_small in E; lia.
  Qed.
  Lemma ftwo_neq_zero : @fadd F fone fone <> fzero.
  Proof.
    intros E. apply neg_one_neq_one.
    assert (H : @fneg F fone = @fsub F fone (@fadd F fone fone)) by ring.
    rewrite H, E. ring.
  Qed.

  (** The default methods [pow] and [pow_vartime] compute powers. *)
  Definition bits_z (l : list bool) (acc : Z) : Z :=
    fold_left (fun e (b : bool) => 2 * e + (if b then 1 else 0)) l acc.
  Lemma pow_fold (step : F -> bool -> F) a
    (Hstep : forall r (b : bool), step r b = fmul (fmul r r) (if b then a else fone)) :
    forall l e, 0 <= e -> fold_left step l (zpow a e) = zpow a (bits_z l e).
  Proof.
    induction l as [|b l IH]; intros e He; cbn [fold_left bits_z]; [reflexivity|].
    rewrite Hstep. destruct b.
    - replace (fmul (fmul (zpow a e) (zpow a e)) a) with (zpow a (2 * e + 1)); [apply IH; lia|].
      rewrite zpow_add, zpow_1 by lia. f_equal. replace (2 * e) with (e + e) by ring. apply zpow_add; lia.
    - replace (fmul (fmul (zpow a e) (zpow a e)) fone) with (zpow a (2 * e + 0)); [apply IH; lia|].
      rewrite Z.add_0_r. replace (2 * e) with (e + e) by ring. rewrite zpow_add by lia. ring.
  Qed.
  Lemma bits_z_app l l' acc : bits_z (l ++ l') acc = bits_z l' (bits_z l acc).
  Proof. apply fold_left_app. Qed.
  Lemma limb_bits_z e acc n : 0 <= e < 2 ^ Z.of_nat n ->
    bits_z (map (fun i => Z.land (Z.shiftr e (Z.of_nat i)) 1 =? 1) (rev (seq 0 n))) acc
    = 2 ^ Z.of_nat n * acc + e.
  Proof.
    revert e acc. induction n as [|n IH]; intros e acc H.
    - cbn [seq rev map bits_z fold_left]. change (2 ^ Z.of_nat 0) with 1 in *. lia.
    - rewrite seq_S, rev_app_distr, Nat.add_0_l. cbn [rev app map bits_z fold_left].
      change (Z.land (Z.shiftr e (Z.of_nat n)) 1) with (Z.land (Z.shiftr e (Z.of_nat n)) (Z.ones 1)).
      rewrite Z.land_ones, Z.shiftr_div_pow2 by lia. change (2 ^ 1) with 2.
      rewrite Nat2Z.inj_succ, Z.pow_succ_r in * by lia.
      set (w := 2 ^ Z.of_nat n) in *. assert (Hw : 0 < w) by (apply Z.pow_pos_nonneg; lia).
      assert (Hq : 0 <= e / w < 2) by (split; [apply Z.div_pos; lia|apply Z.div_lt_upper_bound; lia]).
      rewrite (Z.mod_small (e / w)) by lia.
      assert (Hbits : map (fun i => Z.land (Z.shiftr e (Z.of_nat i)) 1 =? 1) (rev (seq 0 n))
              = map (fun i => Z.land (Z.shiftr (e mod w) (Z.of_nat i)) 1 =? 1) (rev (seq 0 n))).
      { apply map_ext_in. intros i Hi. apply in_rev, in_seq in Hi. f_equal.
        change 1 with (Z.ones 1). rewrite !Z.land_ones by lia. change (2 ^ 1) with 2.
        rewrite <- !Z.bit0_eqb || idtac.
        rewrite !Z.shiftr_div_pow2 by lia.
        rewrite <- (Z.testbit_spec' e (Z.of_nat i)), <- (Z.testbit_spec' (e mod w) (Z.of_nat i)) by lia.
        f_equal. unfold w. rewrite Z.mod_pow2_bits_low by lia. reflexivity. }
      fold (bits_z (map (fun i => Z.land (Z.shiftr e (Z.of_nat i)) 1 =? 1) (rev (seq 0 n)))).
      change (fold_left (fun (e0 : Z) (b : bool) => 2 * e0 + (if b then 1 else 0))) with bits_z.
      rewrite Hbits, IH by (apply Z.mod_pos_bound; exact Hw).
      pose proof (Z.div_mod e w ltac:(lia)) as D.
      destruct (Z.eqb_spec (e / w) 1) as [E1|E1].
      + rewrite E1 in D. nia.
      + assert (E0 : e / w = 0) by lia. rewrite E0 in D. nia.
  Qed.
  Lemma exp_bits_z e : limbs_wf e -> bits_z (exp_bits_rev e) 0 = limbs_val e.
  Proof.
    intros (A0 & A1 & A2 & A3). unfold exp_bits_rev, limb_bits_rev.
    rewrite !bits_z_app, !limb_bits_z by assumption. unfold limbs_val.
    change (2 ^ Z.of_nat 64) with (2 ^ 64). ring.
  Qed.
  Lemma pow_vartime_zpow a e : limbs_wf e -> pow_vartime F a e = zpow a (limbs_val e).
  Proof.
    intros He. unfold pow_vartime. rewrite <- (exp_bits_z e He).
    change (@fone F) with (zpow a 0). apply pow_fold; [|lia].
    intros r b. rewrite fsquare_mul. destruct b; ring.
  Qed.
  Lemma pow_zpow a e : limbs_wf e -> pow F a e = zpow a (limbs_val e).
  Proof.
    intros He. unfold pow. rewrite <- (exp_bits_z e He).
    change (@fone F) with (zpow a 0). apply pow_fold; [|lia].
    intros r b. rewrite fsquare_mul. destruct b; cbn [select]; ring.
  Qed.
End Gen.
