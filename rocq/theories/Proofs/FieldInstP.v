(** [Fp] and [Fq] are the prime fields of order p and q. *)
From Coq Require Import ZArith List Lia Znumtheory Bool Eqdep_dec.
From Verif Require Import Lib.ZMod Model.FieldLimbs Model.FieldInst Spec.FieldSpec Spec.FieldLaws
  Proofs.FieldLimbsP Proofs.FieldRepP Proofs.Primes Proofs.FieldGen Proofs.SqrtP Proofs.BatchInvertP.
Import ListNotations.
Open Scope Z_scope.
#[local] Opaque fe_mul fe_square fe_add fe_sub fe_neg montgomery_reduce fe_to_bytes fe_from_raw.

Lemma canonicalb_spec P a : wf_limbs (MODULUS P) -> (canonicalb P a = true <-> canonical P a).
Proof.
  intros (M0 & M1 & M2 & M3). unfold canonicalb, canonical, wf_limbs, u64b, limbs_ltb, modulus, val in *.
  rewrite !andb_true_iff, !Z.leb_le, !Z.ltb_lt.
  change w64 with (2 ^ 64). unfold is_u64 in *.
  change (2 ^ 64) with 18446744073709551616 in *.
  change (2 ^ 128) with (18446744073709551616 * 18446744073709551616).
  change (2 ^ 192) with (18446744073709551616 * 18446744073709551616 * 18446744073709551616).
  destruct a as [a0 a1 a2 a3], (MODULUS P) as [m0 m1 m2 m3]; cbn [l0 l1 l2 l3] in *.
  destruct (Z.eqb_spec a3 m3) as [->|]; [|rewrite Z.ltb_lt; lia].
  destruct (Z.eqb_spec a2 m2) as [->|]; [|rewrite Z.ltb_lt; lia].
  destruct (Z.eqb_spec a1 m1) as [->|]; [|rewrite Z.ltb_lt; lia].
  rewrite Z.ltb_lt. lia.
Qed.

(** The numeric facts about the remaining constants. *)
Record consts_ok (P : fparams) : Prop := {
  ck_prime : prime (modulus P);
  ck_sqrt_wf : wf_limbs (SQRT_EXP P);
  ck_sqrt : modulus P - 1 = (2 * val (SQRT_EXP P) + 1) * 2 ^ 32;
  ck_sqrt_pos : 0 < val (SQRT_EXP P);
  ck_inv_wf : wf_limbs (INV_EXP P);
  ck_inv : val (INV_EXP P) = modulus P - 2;
  ck_ia_wf : wf_limbs (cRESCUE_INVALPHA P);
  ck_ia : (5 * val (cRESCUE_INVALPHA P)) mod (modulus P - 1) = 1;
  ck_beta_wf : wf_limbs (BETA_raw P);
  ck_beta_lt : val (BETA_raw P) < modulus P;
  ck_beta : (val (BETA_raw P) * val (BETA_raw P) mod modulus P * val (BETA_raw P)) mod modulus P = 1;
  ck_beta1 : val (BETA_raw P) <> 1;
  ck_root : exists r, represents P (ROOT_OF_UNITY P) r /\
                      Nat.iter 31 (fun x => (x * x) mod modulus P) r = modulus P - 1
}.

Section P.
  Variable P : fparams.
  Hypothesis OK : params_ok P.
  Hypothesis CK : consts_ok P.
  Hypothesis Z0 : canonicalb P fe_zero = true.
  Local Notation m := (modulus P).
  Local Notation FE := (FE P).
  Local Notation proj := (proj P).
  Local Notation inj := (inj P Z0).
  Local Notation FEops := (FEops P Z0).
  Local Notation FEval := (FEval P).

  Lemma cb a : canonicalb P a = true <-> canonical P a.
  Proof. apply canonicalb_spec, OK. Qed.
  Lemma proj_inj a : canonical P a -> proj (inj a) = a.
  Proof.
    intros H. apply cb in H. unfold FieldInst.inj. destruct (bool_dec _ _); [reflexivity|contradiction].
  Qed.
  Lemma proj_eq (a b : FE) : proj a = proj b -> a = b.
  Proof.
    destruct a as [a Ha], b as [b Hb]; cbn. intros ->. f_equal. apply UIP_dec, bool_dec.
  Qed.
  Lemma inj_proj (a : FE) : inj (proj a) = a.
  Proof.
    apply proj_eq. apply proj_inj. apply cb. exact (proj2_sig a).
  Qed.
  Lemma proj_canon (a : FE) : canonical P (proj a).
  Proof. apply cb. exact (proj2_sig a). Qed.

  Lemma rep_val (a : FE) : represents P (proj a) (FEval a).
  Proof.
    destruct (rep_total P OK (proj a) (proj_canon a)) as [x Hx].
    unfold FieldInst.FEval. rewrite read_le_le_value.
    destruct (to_bytes_rep P OK _ _ Hx) as (_ & _ & E). rewrite E. exact Hx.
  Qed.
  Lemma val_of_rep a x : represents P a x -> FEval (inj a) = x.
  Proof.
    intros H. apply (rep_fun P OK a); [|exact H].
    rewrite <- (proj_inj a) at 1 by apply H. apply rep_val.
  Qed.

  Lemma FE_laws : OpsLaws FEops m FEval.
  Proof.
    constructor; cbn [FT fzero fone fadd fsub fmul fneg fsquare feqb FieldInst.FEops].
    - apply CK.
    - pose proof (ok_mlo P OK). apply Z.lt_trans with (2 ^ 254); [reflexivity|assumption].
    - intros a. apply (rep_val a).
    - intros a b E. apply proj_eq. apply (rep_inj P _ _ (FEval a)); [apply rep_val|rewrite E; apply rep_val].
    - intros z Hz.
      assert (W : exists a, represents P a z).
      { assert (Hw : wf_limbs (L4 (z mod w64) (z / w64 mod w64) (z / w64 / w64 mod w64) (z / w64 / w64 / w64)) /\
                     val (L4 (z mod w64) (z / w64 mod w64) (z / w64 / w64 mod w64) (z / w64 / w64 / w64)) = z).
        { pose proof (ok_mhi P OK).
          assert (Hh : 0 <= z / w64 / w64 / w64 < w64).
          { rewrite !Zdiv_Zdiv by (cbv; discriminate). split; [apply Z.div_pos; [lia|reflexivity]|].
            apply Z.div_lt_upper_bound; [reflexivity|].
            change (w64 * w64 * w64 * w64) with (2 ^ 256). apply Z.lt_trans with m; [lia|].
            apply Z.lt_trans with (2 ^ 255); [assumption|reflexivity]. }
          assert (H64 : 0 < w64) by reflexivity.
          split.
          - apply wf_mk; unfold u64; try (apply Z.mod_pos_bound; exact H64). exact Hh.
          - rewrite val_val4. unfold val4. cbn [l0 l1 l2 l3].
            pose proof (Z.div_mod z w64 ltac:(lia)). pose proof (Z.div_mod (z / w64) w64 ltac:(lia)).
            pose proof (Z.div_mod (z / w64 / w64) w64 ltac:(lia)).
            rewrite w64_val in *. lia. }
        destruct Hw as [Hw Ev]. pose proof (from_raw_rep P OK _ Hw) as R. rewrite Ev, (Z.mod_small z m) in R by exact Hz.
        eexists. exact R. }
      destruct W as [a Ha]. exists (inj a). apply val_of_rep, Ha.
    - apply val_of_rep, zero_rep, OK.
    - apply val_of_rep, one_rep, OK.
    - intros a b. apply val_of_rep, add_rep; [exact OK|apply rep_val..].
    - intros a b. apply val_of_rep, sub_rep; [exact OK|apply rep_val..].
    - intros a b. apply val_of_rep, mul_rep; [exact OK|apply rep_val..].
    - intros a. apply val_of_rep, neg_rep; [exact OK|apply rep_val..].
    - intros a. apply val_of_rep, square_rep; [exact OK|apply rep_val..].
    - intros a b. rewrite (ct_eq_rep P OK _ _ _ _ (rep_val a) (rep_val b)). apply Z.eqb_eq.
  Qed.

  (** [proj] commutes with every operation ... *)
  Lemma pj_one : proj (@fone FEops) = fe_one P. Proof. apply proj_inj, (one_rep P OK). Qed.
  Lemma pj_zero : proj (@fzero FEops) = fe_zero. Proof. apply proj_inj, (zero_rep P OK). Qed.
  Lemma pj_mul (a b : FEops) : proj (fmul a b) = fe_mul P (proj a) (proj b).
  Proof. apply proj_inj. apply (mul_rep P OK _ _ _ _ (rep_val a) (rep_val b)). Qed.
  Lemma pj_square (a : FEops) : proj (fsquare a) = fe_square P (proj a).
  Proof. apply proj_inj. apply (square_rep P OK _ _ (rep_val a)). Qed.
  Lemma pj_eqb (a b : FEops) : feqb a b = fe_ct_eq (proj a) (proj b).
  Proof. reflexivity. Qed.
  Lemma pj_select (a b : FEops) c : proj (select a b c) = select (proj a) (proj b) c.
  Proof. destruct c; reflexivity. Qed.

  (** ... hence with the generic algorithms. *)
  Lemma pj_pow_vartime (a : FEops) e : proj (pow_vartime FEops a e) = fe_pow_vartime P (proj a) e.
  Proof.
    unfold fe_pow_vartime, pow_vartime. generalize (exp_bits_rev e) as l. intros l.
    cbn [fone limb_ops]. rewrite <- pj_one. generalize (@fone FEops) as r.
    induction l as [|b l IH]; intros r; cbn [fold_left]; [reflexivity|]. rewrite IH. f_equal.
    cbn [fsquare fmul limb_ops]. destruct b; rewrite ?pj_mul, ?pj_square; reflexivity.
  Qed.
  Definition pj (a : FEops) : limb_ops P := proj a.
  Definition pj4 (st : FEops * FEops * nat * bool) : limb_ops P * limb_ops P * nat * bool :=
    let '(a, b, k, j) := st in (pj a, pj b, k, j).
  Definition pj4' (st : FEops * FEops * FEops * nat) : limb_ops P * limb_ops P * limb_ops P * nat :=
    let '(a, b, c, k) := st in (pj a, pj b, pj c, k).
  Lemma pj_inner vv st j : pj4 (sqrt_inner FEops vv st j) = sqrt_inner (limb_ops P) vv (pj4 st) j.
  Proof.
    destruct st as [[[t z] k] jl]. cbn [pj4]. unfold sqrt_inner, pj.
    cbn [pj4 feqb fsquare fone limb_ops]. rewrite !pj_select, !pj_square, !pj_select, !pj_eqb, !pj_one.
    reflexivity.
  Qed.
  Lemma pj_inner_fold vv l : forall st,
    pj4 (fold_left (sqrt_inner FEops vv) l st) = fold_left (sqrt_inner (limb_ops P) vv) l (pj4 st).
  Proof. induction l as [|j l IH]; intros st; cbn [fold_left]; [reflexivity|]. rewrite IH, pj_inner. reflexivity. Qed.
  Lemma pj_outer st mx : pj4' (sqrt_outer FEops st mx) = sqrt_outer (limb_ops P) (pj4' st) mx.
  Proof.
    destruct st as [[[x b] z] vv]. cbn [pj4']. unfold sqrt_outer.
    pose proof (pj_inner_fold vv (seq 2 (mx - 2)) (fsquare b, z, 1%nat, true)) as E.
    cbn [pj4] in E. unfold pj at 1 in E. rewrite pj_square in E. cbn [fsquare limb_ops]. set (G := fold_left (sqrt_inner (limb_ops P) vv) _ _).
    assert (E' : G = pj4 (fold_left (sqrt_inner FEops vv) (seq 2 (mx - 2)) (fsquare b, z, 1%nat, true))) by (symmetry; exact E).
    rewrite E'. clear E E' G.
    destruct (fold_left _ _ _) as [[[t z1] k] j]. cbn [pj4 pj4' fmul fsquare feqb fone limb_ops]. unfold pj.
    rewrite pj_select, !pj_mul, !pj_square, pj_eqb, pj_one. reflexivity.
  Qed.
  Lemma pj_outer_fold l : forall st,
    pj4' (fold_left (sqrt_outer FEops) l st) = fold_left (sqrt_outer (limb_ops P)) l (pj4' st).
  Proof. induction l as [|j l IH]; intros st; cbn [fold_left]; [reflexivity|]. rewrite IH, pj_outer. reflexivity. Qed.

  Lemma root_canon : canonical P (ROOT_OF_UNITY P). Proof. apply OK. Qed.

  Lemma pj_body s (root a w : FEops) : 
    sqrt_body (F := limb_ops P) s (proj root) (proj a) (proj w)
    = option_map proj (sqrt_body s root a w).
  Proof.
    unfold sqrt_body.
    pose proof (pj_outer_fold (rev (seq 1 s)) (fmul a w, fmul (fmul a w) w, root, s)) as E.
    cbn [pj4'] in E. unfold pj in E. rewrite !pj_mul in E.
    cbn [fmul limb_ops feqb].
    set (G := fold_left (sqrt_outer (limb_ops P)) _ _).
    set (H := fold_left (sqrt_outer FEops) _ _) in *.
    assert (E' : G = pj4' H) by (symmetry; exact E).
    rewrite E'. clear E E' G. clearbody H. destruct H as [[[x b] z] k].
    cbn [pj4']. unfold pj. rewrite <- pj_mul. rewrite <- pj_eqb.
    destruct (feqb (fmul x x) a); reflexivity.
  Qed.
  Lemma pj_sqrt (a : FEops) :
    fe_sqrt P (proj a) =
    option_map proj (sqrt_tonelli FEops TWO_ADICITY (inj (ROOT_OF_UNITY P)) (SQRT_EXP P) a).
  Proof.
    pose proof (pj_body TWO_ADICITY (inj (ROOT_OF_UNITY P)) a (pow_vartime FEops a (SQRT_EXP P))) as E.
    rewrite pj_pow_vartime, (proj_inj _ root_canon) in E.
    rewrite sqrt_body_eq. rewrite <- E. unfold fe_sqrt, fe_pow_vartime. exact (sqrt_body_eq (F := limb_ops P) _ _ _ _).
  Qed.

  Lemma limbs_val_eq e : limbs_val e = val e. Proof. reflexivity. Qed.
  Lemma root_sqn : sqn (TWO_ADICITY - 1) (inj (ROOT_OF_UNITY P) : FEops) = fneg fone.
  Proof.
    destruct (ck_root P CK) as (r & Hr & Hi).
    apply (ol_inj _ _ _ FE_laws).
    assert (G : forall j, FEval (sqn j (inj (ROOT_OF_UNITY P) : FEops)) = Nat.iter j (fun x => (x * x) mod m) r).
    { induction j as [|j IH].
      - cbn [sqn Nat.iter]. apply val_of_rep, Hr.
      - cbn [sqn]. rewrite (ol_mul _ _ _ FE_laws), IH. reflexivity. }
    rewrite G. change (TWO_ADICITY - 1)%nat with 31%nat. rewrite Hi.
    rewrite (ol_neg _ _ _ FE_laws), (ol_one _ _ _ FE_laws).
    replace (- (1)) with (m - 1 + (-1) * m) by ring. rewrite Z_mod_plus_full, Z.mod_small; [reflexivity|].
    pose proof (ol_odd _ _ _ FE_laws). lia.
  Qed.

  Lemma fe_sqrt_some a x y : represents P a x -> fe_sqrt P a = Some y ->
    exists z, represents P y z /\ (z * z) mod m = x.
  Proof.
    intros Ha. rewrite <- (proj_inj a) by apply Ha. rewrite pj_sqrt.
    destruct (sqrt_tonelli _ _ _ _ _) as [s|] eqn:E; [|discriminate]. intros H.
    assert (y = proj s) by (cbn in H; congruence). subst y.
    exists (FEval s). split; [apply rep_val|].
    apply (sqrt_sound FE_laws) in E. apply (f_equal FEval) in E.
    rewrite (ol_mul _ _ _ FE_laws) in E. rewrite E. apply val_of_rep, Ha.
  Qed.
  Lemma fe_sqrt_none a x : represents P a x -> fe_sqrt P a = None -> forall z, (z * z) mod m <> x.
  Proof.
    intros Ha. rewrite <- (proj_inj a) by apply Ha. rewrite pj_sqrt. intros H z Ez.
    assert (Hm : 0 < m) by (pose proof (ol_odd _ _ _ FE_laws); lia).
    destruct (ol_surj _ _ _ FE_laws (z mod m)) as [y Hy]; [apply Z.mod_pos_bound, Hm|].
    assert (E : inj a = fmul y y :> FEops).
    { apply (ol_inj _ _ _ FE_laws). rewrite (ol_mul _ _ _ FE_laws), Hy, <- Zmult_mod, Ez. apply val_of_rep, Ha. }
    rewrite E in H.
    destruct (sqrt_complete FE_laws TWO_ADICITY (inj (ROOT_OF_UNITY P)) (SQRT_EXP P)) with (y := y) as [s Hs].
    - unfold TWO_ADICITY; lia.
    - apply root_sqn.
    - apply CK.
    - apply CK.
    - apply CK.
    - rewrite Hs in H. discriminate H.
  Qed.

  Lemma fe_invert_zero a : represents P a 0 -> fe_invert P a = None.
  Proof.
    intros H. unfold fe_invert. rewrite (ct_eq_rep P OK _ _ _ _ H (zero_rep P OK)). reflexivity.
  Qed.
  Lemma fe_invert_nonzero a x : represents P a x -> x <> 0 ->
    exists b y, fe_invert P a = Some b /\ represents P b y /\ (x * y) mod m = 1.
  Proof.
    intros H Hx. unfold fe_invert. rewrite (ct_eq_rep P OK _ _ _ _ H (zero_rep P OK)).
    destruct (Z.eqb_spec x 0); [contradiction|]. cbn [negb].
    pose proof (pow_vartime_rep P OK a x (INV_EXP P) H (ck_inv_wf P CK)) as R.
    eexists _, _. split; [reflexivity|]. split; [exact R|].
    rewrite Zmult_mod_idemp_r. rewrite (ck_inv P CK).
    pose proof (ol_odd _ _ _ FE_laws).
    rewrite <- Z.pow_succ_r by lia. replace (Z.succ (m - 2)) with (m - 1) by lia.
    apply fermat_little; [apply CK|]. destruct H as (_ & Hr & _). rewrite Z.mod_small by exact Hr. exact Hx.
  Qed.

  (** batch inversion on limbs *)
  Lemma pj_is_zero (a : FEops) : is_zero FEops a = is_zero (limb_ops P) (pj a).
  Proof. unfold is_zero. rewrite pj_eqb, pj_zero. reflexivity. Qed.
  Lemma pj_mul' (a b : FEops) : pj (fmul a b) = fmul (pj a) (pj b).
  Proof. apply pj_mul. Qed.
  Lemma pj_select' (a b : FEops) c : pj (select a b c) = select (pj a) (pj b) c.
  Proof. destruct c; reflexivity. Qed.
  Lemma pj_fwd (vs : list FEops) : forall acc : FEops,
    batch_fwd (limb_ops P) (map pj vs) (pj acc) =
    (map pj (fst (batch_fwd FEops vs acc)), pj (snd (batch_fwd FEops vs acc))).
  Proof.
    induction vs as [|x vs IH]; intros acc; [reflexivity|]. cbn [map batch_fwd].
    rewrite <- pj_is_zero, <- pj_mul', <- pj_select', IH.
    destruct (batch_fwd FEops vs _) as [t c]. reflexivity.
  Qed.
  Lemma pj_bwd (vt : list (FEops * FEops)) : forall acc : FEops,
    batch_bwd (limb_ops P) (map (fun c => (pj (fst c), pj (snd c))) vt) (pj acc) =
    map pj (batch_bwd FEops vt acc).
  Proof.
    induction vt as [|[x t] vt IH]; intros acc; [reflexivity|]. cbn [map batch_bwd fst snd].
    rewrite <- pj_is_zero, <- !pj_mul', <- !pj_select', IH. reflexivity.
  Qed.
  Lemma combine_map {A B} (f : A -> B) (l l' : list A) :
    combine (map f l) (map f l') = map (fun c => (f (fst c), f (snd c))) (combine l l').
  Proof. revert l'. induction l as [|a l IH]; intros [|b l']; cbn; [reflexivity..|]. rewrite IH. reflexivity. Qed.
  Definition invert_FE (a : FEops) : option FEops := option_map inj (fe_invert P (proj a)).
  Lemma pj_invert (a : FEops) : fe_invert P (proj a) = option_map proj (invert_FE a).
  Proof.
    unfold invert_FE. destruct (fe_invert P (proj a)) as [b|] eqn:E; [|reflexivity]. cbn. f_equal.
    symmetry. apply proj_inj. unfold fe_invert in E. destruct (negb _); [|discriminate].
    injection E as <-. apply (pow_vartime_rep P OK _ _ _ (rep_val a) (ck_inv_wf P CK)).
  Qed.
  Lemma pj_batch (vs : list FEops) :
    fe_batch_invert P (map pj vs) =
    option_map (fun r => (map pj (fst r), pj (snd r))) (batch_invert FEops invert_FE vs).
  Proof.
    unfold fe_batch_invert, batch_invert.
    assert (E1 : @fone (limb_ops P) = pj fone) by (symmetry; exact pj_one).
    rewrite E1, pj_fwd.
    destruct (batch_fwd FEops vs fone) as [t c]. cbn [fst snd]. unfold pj at 2. rewrite pj_invert.
    destruct (invert_FE c) as [ai|]; [|reflexivity]. cbn [option_map fst snd].
    rewrite <- !map_rev, combine_map. fold (pj ai). rewrite pj_bwd, map_rev. reflexivity.
  Qed.
  Lemma invert_FE_ok (a : FEops) : a <> fzero -> exists b, invert_FE a = Some b /\ fmul a b = fone.
  Proof.
    intros Ha. assert (Nz : FEval a <> 0).
    { intros E. apply Ha. apply (ol_inj _ _ _ FE_laws). rewrite E. symmetry. apply (ol_zero _ _ _ FE_laws). }
    destruct (fe_invert_nonzero _ _ (rep_val a) Nz) as (b & y & E & R & Hy).
    exists (inj b). unfold invert_FE. rewrite E. split; [reflexivity|].
    apply (ol_inj _ _ _ FE_laws). rewrite (ol_mul _ _ _ FE_laws), (val_of_rep _ _ R), (ol_one _ _ _ FE_laws). exact Hy.
  Qed.

  (** Limb-level statement: entry by entry. *)
  Theorem fe_batch_invert_ok (vs : list limbs) (xs : list Z) : Forall2 (represents P) vs xs ->
    exists ws allinv, fe_batch_invert P vs = Some (ws, allinv) /\ length ws = length vs /\
      (forall i a x, nth_error vs i = Some a -> represents P a x -> exists b y,
         nth_error ws i = Some b /\ represents P b y /\
         (if x =? 0 then y = 0 else (x * y) mod m = 1)) /\
      (exists c, represents P allinv c /\
         (fold_right (fun x r => if x =? 0 then r else x * r) 1 xs * c) mod m = 1).
  Proof.
    intros H.
    assert (E : exists us : list FEops, vs = map proj us /\ xs = map FEval us).
    { induction H as [|a x vs xs Ha _ (us & -> & ->)]; [exists []; split; reflexivity|].
      exists (inj a :: us). cbn [map]. rewrite (proj_inj a) by apply Ha. rewrite (val_of_rep a x Ha).
      split; reflexivity. }
    destruct E as (us & -> & ->). change (map proj us) with (map pj us). rewrite pj_batch.
    rewrite (batch_invert_ok FE_laws invert_FE invert_FE_ok). cbn [option_map fst snd].
    eexists _, _. split; [reflexivity|]. split; [rewrite !map_length; reflexivity|]. split.
    - intros i a x Hi Hx. rewrite !nth_error_map in *. destruct (nth_error us i) as [u|] eqn:Eu; [|discriminate].
      cbn [option_map] in *. injection Hi as <-. eexists _, _. split; [reflexivity|]. split; [apply rep_val|].
      pose proof (rep_fun P OK _ _ _ Hx (rep_val u)) as ->.
      unfold binv, is_zero. rewrite pj_eqb. rewrite pj_zero. rewrite (ct_eq_rep P OK _ _ _ _ (rep_val u) (zero_rep P OK)).
      destruct (Z.eqb_spec (FEval u) 0); [assumption|].
      rewrite <- (ol_mul _ _ _ FE_laws), <- (ol_one _ _ _ FE_laws). f_equal.
      rewrite (Rmul_comm (fring FE_laws)). apply (finv_l FE_laws).
      intros ->. apply n. apply (ol_zero _ _ _ FE_laws).
    - set (pr := fold_right (fun (x r : FEops) => if is_zero FEops x then r else fmul x r) fone us).
      exists (FEval (finv (p := m) pr)). split; [apply rep_val|].
      assert (G : FEval pr = fold_right (fun x r => if x =? 0 then r else x * r) 1 (map FEval us) mod m /\ pr <> fzero).
      { unfold pr. clear H. induction us as [|u us [IH IHn]]; cbn [map fold_right].
        - rewrite (ol_one _ _ _ FE_laws). split; [symmetry; apply Z.mod_small; pose proof (ol_odd _ _ _ FE_laws); lia|apply (fone_neq_zero FE_laws)].
        - assert (Ez : is_zero FEops u = (FEval u =? 0)).
          { unfold is_zero. rewrite pj_eqb, pj_zero. apply (ct_eq_rep P OK _ _ _ _ (rep_val u) (zero_rep P OK)). }
          rewrite Ez.
          destruct (Z.eqb_spec (FEval u) 0) as [Eu|Eu]; [split; [exact IH|exact IHn]|].
          split; [rewrite (ol_mul _ _ _ FE_laws), IH, Zmult_mod_idemp_r; reflexivity|].
          apply (mul_nz FE_laws); [|exact IHn]. intros ->. apply Eu, (ol_zero _ _ _ FE_laws). }
      destruct G as [G Gn]. rewrite <- Zmult_mod_idemp_l, <- G, <- (ol_mul _ _ _ FE_laws), <- (ol_one _ _ _ FE_laws).
      f_equal. rewrite (Rmul_comm (fring FE_laws)). apply (finv_l FE_laws). exact Gn.
  Qed.

  (** The whole trait implementation. *)
  Lemma beta_rep : represents P (fe_BETA P) (val (BETA_raw P)).
  Proof.
    pose proof (from_raw_rep P OK _ (ck_beta_wf P CK)) as R. rewrite Z.mod_small in R; [exact R|].
    split; [|apply CK]. apply wf_bound, CK.
  Qed.

  Theorem FE_field_laws : FieldLaws (FEfield P Z0) m FEval.
  Proof.
    constructor; cbn [fops f_S f_ALPHA f_RESCUE_ALPHA f_RESCUE_INVALPHA f_BETA f_from_bool f_from_u64
      f_from_u128 f_sqrt f_invert f_to_bytes f_from_bytes f_get_lower_128 FEfield].
    - exact FE_laws.
    - split; apply OK.
    - intros b. apply val_of_rep, from_bool_rep, OK.
    - intros x Hx. apply val_of_rep, from_u64_rep; [exact OK|exact Hx].
    - intros x Hx. apply val_of_rep, from_u128_rep; [exact OK|exact Hx].
    - intros a Ha. pose proof (rep_val a) as R. rewrite Ha in R. rewrite (fe_invert_zero _ R). reflexivity.
    - intros a Ha. destruct (fe_invert_nonzero _ _ (rep_val a) Ha) as (b & y & E & R & Hy).
      exists (inj b). rewrite E. split; [reflexivity|]. rewrite (val_of_rep _ _ R). exact Hy.
    - intros a b. destruct (fe_sqrt P (proj a)) as [s|] eqn:E; [|discriminate]. intros Hb.
      assert (b = inj s) by (cbn in Hb; congruence). subst b.
      destruct (fe_sqrt_some _ _ _ (rep_val a) E) as (z & R & Hz). rewrite (val_of_rep _ _ R). exact Hz.
    - intros a. destruct (fe_sqrt P (proj a)) as [s|] eqn:E; [discriminate|]. intros _.
      apply (fe_sqrt_none _ _ (rep_val a) E).
    - intros a. apply (to_bytes_rep P OK _ _ (rep_val a)).
    - intros bs L Hb. destruct (from_bytes_spec P OK bs L Hb) as [A B]. split; intros Hlt.
      + destruct (A Hlt) as (a & E & R). exists (inj a). rewrite E. split; [reflexivity|]. apply val_of_rep, R.
      + rewrite (B Hlt). reflexivity.
    - intros a. apply (get_lower_rep P OK _ _ (rep_val a)).
    - reflexivity.
    - rewrite (ck_sqrt P CK). apply Z.mod_mul. discriminate.
    - reflexivity.
    - pose proof root_sqn as R. rewrite (sqn_zpow FE_laws) in R. apply (f_equal FEval) in R.
      rewrite (v_zpow FE_laws) in R by (apply Z.pow_nonneg; lia).
      change (2 ^ Z.of_nat (TWO_ADICITY - 1)) with (2 ^ 31) in R. rewrite R. clear R.
      rewrite (ol_neg _ _ _ FE_laws), (ol_one _ _ _ FE_laws).
      replace (- (1)) with (m - 1 + (-1) * m) by ring. rewrite Z_mod_plus_full, Z.mod_small; [reflexivity|].
      pose proof (ol_odd _ _ _ FE_laws). lia.
    - apply CK.
    - apply CK.
    - rewrite (val_of_rep _ _ beta_rep). split; [apply CK|].
      replace (val (BETA_raw P) ^ 3) with (val (BETA_raw P) * val (BETA_raw P) * val (BETA_raw P)) by ring.
      rewrite <- (Zmult_mod_idemp_l (val (BETA_raw P) * val (BETA_raw P))). apply CK.
  Qed.
End P.
