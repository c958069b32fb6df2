(** The order of the two groups and the action of the endomorphism: the facts
    about the generator are computed, the rest follows by counting points. *)
From Coq Require Import List Bool ZArith Lia Ring Field Znumtheory Uint63.
From Verif Require Import Lib.AbGroup Lib.Fast63 Lib.FastCurve Model.FieldTrait Model.Curve Spec.FieldLaws Spec.CurveSpec
  Proofs.FieldGen Proofs.ZtoF Proofs.CurveP Proofs.CurveCodeP.
Import ListNotations.
Open Scope Z_scope.

Section Order.
  Context {F S : Field} {p v} (FL : FieldLaws F p v) {r vs} (SL : FieldLaws S r vs).
  Let OL := fl_ops _ _ _ FL.
  Add Field Ff : (ffield OL).
  Variable b : F.
  Hypothesis no_root : forall u : F, FieldTrait.fadd (FieldTrait.fmul (FieldTrait.fmul u u) u) b <> fzero.
  Notation on := (on_curve b).
  Notation ECG := (ECG FL b no_root).
  Notation "x *f y" := (FieldTrait.fmul x y) (at level 40, left associativity).
  Notation "x +f y" := (FieldTrait.fadd x y) (at level 50, left associativity).
  Notation "x -f y" := (FieldTrait.fsub x y) (at level 50, left associativity).

  (** ** fast representatives *)
  Variables (n : list int) (ninv : int).
  Hypothesis Hctx : ctx_ok p n ninv = true.
  Notation fm := (Fast63.fmul n ninv).
  Notation fa := Fast63.fadd.
  Definition fr (l : list int) (x : F) : Prop := exists z, frep p l z /\ fz z = x.
  Lemma fr_mul a c x y : fr a x -> fr c y -> fr (fm a c) (x *f y).
  Proof.
    intros (z & H & <-) (z' & H' & <-). exists (z * z'). destruct (ctx_ok_spec _ _ _ Hctx) as (H1 & H2 & H3 & H4 & H5 & H6).
    split; [apply frep_mul; assumption|apply (fz_mul OL)].
  Qed.
  Lemma fr_add a c x y : fr a x -> fr c y -> fr (fa a c) (x +f y).
  Proof.
    intros (z & H & <-) (z' & H' & <-). exists (z + z'). destruct (ctx_ok_spec _ _ _ Hctx) as (H1 & H2 & H3 & H4 & H5 & H6).
    split; [apply frep_add; assumption|apply (fz_add OL)].
  Qed.
  Lemma fr_toM z : fr (toM p z) (fz z).
  Proof.
    exists z. destruct (ctx_ok_spec _ _ _ Hctx) as (H1 & H2 & H3 & H4 & H5 & H6). split; [|reflexivity].
    apply (frep_toM p n ninv); assumption.
  Qed.
  Lemma fr_read l x z : fr l x -> fromM p n ninv l = Some z -> v x = z.
  Proof.
    intros (y & H & <-) E. destruct (ctx_ok_spec _ _ _ Hctx) as (H1 & H2 & H3 & H4 & H5 & H6).
    rewrite (v_fz OL). symmetry. apply (fromM_spec p n ninv H1 H2 H3 H4 H5 _ _ _ H E).
  Qed.
  Definition opt_eqb (a c : option Z) : bool :=
    match a, c with Some x, Some y => x =? y | _, _ => false end.
  Lemma fr_eqb l l' x y : fr l x -> fr l' y -> opt_eqb (fromM p n ninv l) (fromM p n ninv l') = true -> x = y.
  Proof.
    intros H H' E. destruct (fromM p n ninv l) as [z|] eqn:E1; [|discriminate].
    destruct (fromM p n ninv l') as [z'|] eqn:E2; [|discriminate]. cbn [opt_eqb] in E. apply Z.eqb_eq in E. subst z'.
    apply (ol_inj _ _ _ OL). rewrite (fr_read _ _ _ H E1), (fr_read _ _ _ H' E2). reflexivity.
  Qed.

  (** powers: residue tests *)
  Definition pow_not_one (a e : Z) : bool :=
    match e with
    | Zpos e => match fromM p n ninv (fpow n ninv (toM p a) e) with Some z => negb (z =? 1) | None => false end
    | _ => false
    end.
  Lemma fpow_fr l x e : fr l x -> fr (fpow n ninv l e) (zpow x (Zpos e)).
  Proof.
    intros (z & H & <-). exists (z ^ Zpos e). destruct (ctx_ok_spec _ _ _ Hctx) as (H1 & H2 & H3 & H4 & H5 & H6).
    split; [apply frep_pow; assumption|apply (fz_pow_zpow OL); lia].
  Qed.
  Lemma pow_not_one_spec a e : pow_not_one a e = true -> zpow (fz a : F) e <> fone.
  Proof.
    unfold pow_not_one. destruct e as [|e|e]; try discriminate.
    destruct (fromM p n ninv (fpow n ninv (toM p a) e)) as [z|] eqn:E; [|discriminate].
    intros H HH. pose proof (fr_read _ _ _ (fpow_fr _ _ e (fr_toM a)) E) as E1. rewrite HH, (ol_one _ _ _ OL) in E1.
    subst z. discriminate H.
  Qed.
  (** an element whose (p-1)/k power is not one is not a k-th power *)
  Lemma not_power k e (a u : F) : (0 < k) -> 0 <= e -> p - 1 = k * e -> a <> fzero -> zpow a e <> fone -> zpow u k <> a.
  Proof.
    intros Hk He E Ha HP HU. apply HP. rewrite <- HU.
    assert (Hu : u <> fzero).
    { intros ->. apply Ha. rewrite <- HU. clear -Hk OL. replace k with (Z.succ (k - 1)) by lia.
      rewrite (zpow_succ OL) by lia. ring. }
    rewrite (zpow_mul OL) by lia. rewrite <- E. apply (fermat OL), Hu.
  Qed.

  (** ** multiples of a point *)
  Variables m1 l3 ml3 : list int.
  Hypothesis Hm1 : fr m1 (fneg fone).
  Hypothesis Hl3 : fr l3 (b +f b +f b).
  Hypothesis Hml3 : fr ml3 (fneg (b +f b +f b)).
  Definition trep (t : trip) (g : ECG) : Prop :=
    exists X Y Z, fr (fst (fst t)) X /\ fr (snd (fst t)) Y /\ fr (snd t) Z /\ rep3 b X Y Z (proj1_sig g).
  Lemma fr_eq l x y : fr l x -> x = y -> fr l y. Proof. intros H <-. exact H. Qed.
  Lemma tadd_rep P Q g h : trep P g -> trep Q h -> trep (tadd n ninv m1 l3 ml3 P Q) (gp g h).
  Proof.
    destruct P as [[x1 y1] z1], Q as [[x2 y2] z2].
    intros (X & Y & Z & HX & HY & HZ & HR) (X' & Y' & Z' & HX' & HY' & HZ' & HR').
    cbn [fst snd] in *. pose proof (add_rep3 FL b no_root _ _ _ _ _ _ _ _ HR HR') as RR.
    unfold tadd. cbv zeta.
    pose proof (fr_mul _ _ _ _ HX HX') as xx. pose proof (fr_mul _ _ _ _ HY HY') as yy. pose proof (fr_mul _ _ _ _ HZ HZ') as zz.
    pose proof (fr_add _ _ _ _ (fr_mul _ _ _ _ HX HY') (fr_mul _ _ _ _ HX' HY)) as xy.
    pose proof (fr_add _ _ _ _ (fr_mul _ _ _ _ HY HZ') (fr_mul _ _ _ _ HY' HZ)) as yz.
    pose proof (fr_mul _ _ _ _ Hl3 (fr_add _ _ _ _ (fr_mul _ _ _ _ HX HZ') (fr_mul _ _ _ _ HX' HZ))) as xz.
    pose proof (fr_add _ _ _ _ yy (fr_mul _ _ _ _ Hml3 zz)) as u.
    pose proof (fr_add _ _ _ _ yy (fr_mul _ _ _ _ Hl3 zz)) as w.
    pose proof (fr_add _ _ _ _ xx (fr_add _ _ _ _ xx xx)) as x3.
    exists (ax b X Y Z X' Y' Z'), (ay b X Y Z X' Y' Z'), (az b X Y Z X' Y' Z'). cbn [fst snd].
    split; [|split; [|split; [|exact RR]]].
    - eapply fr_eq; [exact (fr_add _ _ _ _ (fr_mul _ _ _ _ xy u) (fr_mul _ _ _ _ Hm1 (fr_mul _ _ _ _ yz xz)))|unfold ax; ring].
    - eapply fr_eq; [exact (fr_add _ _ _ _ (fr_mul _ _ _ _ u w) (fr_mul _ _ _ _ x3 xz))|unfold ay; ring].
    - eapply fr_eq; [exact (fr_add _ _ _ _ (fr_mul _ _ _ _ yz w) (fr_mul _ _ _ _ xy x3))|unfold az; ring].
  Qed.
  Lemma tmul_rep P g e : trep P g -> trep (tmul n ninv m1 l3 ml3 e P) (zmul (Zpos e) g).
  Proof.
    intro H. induction e as [e IH|e IH|]; cbn [tmul]; [| |exact H].
    - replace (Zpos e~1) with (2 * Zpos e + 1) by lia. rewrite zmul_add, zmul_double, zmul_1.
      apply tadd_rep; [apply tadd_rep; exact IH|exact H].
    - replace (Zpos e~0) with (2 * Zpos e) by lia. rewrite zmul_double. apply tadd_rep; exact IH.
  Qed.
  (** the two certificates *)
  Definition order_check (gx gy : Z) (e : Z) : bool :=
    match e with
    | Zpos e =>
        let '(_, _, z) := tmul n ninv m1 l3 ml3 e (toM p gx, toM p gy, toM p 1) in
        opt_eqb (fromM p n ninv z) (Some 0)
    | _ => false
    end.
  Definition multiple_check (gx gy e hx hy : Z) : bool :=
    match e with
    | Zpos e =>
        let '(x, y, z) := tmul n ninv m1 l3 ml3 e (toM p gx, toM p gy, toM p 1) in
        match fromM p n ninv z with
        | Some z0 => negb (z0 =? 0) && opt_eqb (fromM p n ninv x) (fromM p n ninv (fm (toM p hx) z))
                     && opt_eqb (fromM p n ninv y) (fromM p n ninv (fm (toM p hy) z))
        | None => false
        end
    | _ => false
    end%bool.
  Lemma start_rep gx gy (g : ECG) : proj1_sig g = Some (fz gx, fz gy) -> trep (toM p gx, toM p gy, toM p 1) g.
  Proof.
    intro E. exists (fz gx), (fz gy), fone. cbn [fst snd]. split; [apply fr_toM|]. split; [apply fr_toM|]. split; [apply (fr_toM 1)|].
    rewrite E. apply (rep3_one FL). rewrite <- E. apply (ec_on FL).
  Qed.
  Lemma order_check_spec gx gy e (g : ECG) : proj1_sig g = Some (fz gx, fz gy) -> order_check gx gy e = true -> zmul e g = g0.
  Proof.
    intros E H. destruct e as [|e|e]; try discriminate H. pose proof (tmul_rep _ _ e (start_rep _ _ _ E)) as HR.
    unfold order_check in H. destruct (tmul n ninv m1 l3 ml3 e (toM p gx, toM p gy, toM p 1)) as [[x y] z].
    destruct HR as (X & Y & Z & HX & HY & HZ & HR). cbn [fst snd] in *.
    destruct (fromM p n ninv z) as [z0|] eqn:EZ; [|discriminate H]. cbn [opt_eqb] in H. apply Z.eqb_eq in H. subst z0.
    pose proof (fr_read _ _ _ HZ EZ) as E0. apply (v_eq_zero OL) in E0. subst Z.
    apply (ec_eq b). destruct (proj1_sig (zmul (Zpos e) g)) as [[x0 y0]|]; [|reflexivity].
    cbn [rep3] in HR. destruct HR as (HH & _). contradiction HH. reflexivity.
  Qed.
  Lemma multiple_check_spec gx gy e hx hy (g h : ECG) : proj1_sig g = Some (fz gx, fz gy) -> proj1_sig h = Some (fz hx, fz hy) ->
    multiple_check gx gy e hx hy = true -> zmul e g = h.
  Proof.
    intros E E' H. destruct e as [|e|e]; try discriminate H. pose proof (tmul_rep _ _ e (start_rep _ _ _ E)) as HR.
    unfold multiple_check in H. destruct (tmul n ninv m1 l3 ml3 e (toM p gx, toM p gy, toM p 1)) as [[x y] z].
    destruct HR as (X & Y & Z & HX & HY & HZ & HR). cbn [fst snd] in *.
    destruct (fromM p n ninv z) as [z0|] eqn:EZ; [|discriminate H]. apply andb_prop in H. destruct H as [H EY].
    apply andb_prop in H. destruct H as [H0 EX].
    pose proof (fr_eqb _ _ _ _ HX (fr_mul _ _ _ _ (fr_toM hx) HZ) EX) as XX.
    pose proof (fr_eqb _ _ _ _ HY (fr_mul _ _ _ _ (fr_toM hy) HZ) EY) as YY.
    apply (ec_eq b). eapply (rep3_cross FL b); [exact HR| |rewrite XX; reflexivity|rewrite YY; reflexivity].
    cbn [rep3]. rewrite E'. cbn [rep3]. split.
    - intros ->. pose proof (fr_read _ _ _ HZ EZ) as E0. rewrite (ol_zero _ _ _ OL) in E0. subst z0. discriminate H0.
    - split; [reflexivity|]. split; [reflexivity|]. rewrite <- E'. apply (ec_on FL).
  Qed.
End Order.

Section Count.
  Context {F : Field} {p v} (FL : FieldLaws F p v).
  Let OL := fl_ops _ _ _ FL.
  Add Field Ff2 : (ffield OL).
  Variable b : F.
  Hypothesis no_root : forall u : F, FieldTrait.fadd (FieldTrait.fmul (FieldTrait.fmul u u) u) b <> fzero.
  Notation ECG := (ECG FL b no_root).
  (** a point is determined by its abscissa and the parity of its ordinate *)
  Definition pcode (g : ECG) : Z :=
    match proj1_sig g with None => 0 | Some (x, y) => 1 + 2 * v x + v y mod 2 end.
  Lemma pcode_range g : 0 <= pcode g < 2 * p + 1.
  Proof.
    unfold pcode. pose proof (ol_odd _ _ _ OL). destruct (proj1_sig g) as [[x y]|]; [|lia].
    pose proof (ol_range _ _ _ OL x). pose proof (Z.mod_pos_bound (v y) 2 ltac:(lia)). lia.
  Qed.
  Lemma pcode_inj g h : pcode g = pcode h -> g = h.
  Proof.
    intro E. apply (ec_eq b). pose proof (ec_on FL b g) as Hg. pose proof (ec_on FL b h) as Hh. unfold pcode in E.
    destruct (proj1_sig g) as [[x y]|], (proj1_sig h) as [[x' y']|]; [| | |reflexivity].
    - pose proof (Z.mod_pos_bound (v y) 2 ltac:(lia)). pose proof (Z.mod_pos_bound (v y') 2 ltac:(lia)).
      assert (x = x') by (apply (ol_inj _ _ _ OL); lia). subst x'. f_equal. f_equal.
      apply (sgn_inj FL); [exact (y_nonzero FL b no_root _ _ Hg)|cbn [on_curve] in *; congruence|unfold sgn; lia].
    - exfalso. pose proof (ol_range _ _ _ OL x). pose proof (Z.mod_pos_bound (v y) 2 ltac:(lia)). lia.
    - exfalso. pose proof (ol_range _ _ _ OL x'). pose proof (Z.mod_pos_bound (v y') 2 ltac:(lia)). lia.
  Qed.
  Lemma no_two_torsion (g : ECG) : gp g g = g0 -> g = g0.
  Proof.
    intro E. apply (ec_eq b). apply (f_equal (@proj1_sig _ _)) in E. cbn in E. pose proof (ec_on FL b g) as Hg.
    change (proj1_sig (@g0 ECG)) with (@None (F * F)).
    destruct (proj1_sig g) as [[x y]|]; [|reflexivity]. exfalso. cbn [gadd] in E. rewrite (feqb_refl OL) in E.
    destruct (feqb y (fneg y)) eqn:EY; [|discriminate E]. apply (feqb_eq OL) in EY.
    apply (double_y_nonzero FL b no_root _ _ Hg). rewrite EY at 1. ring.
  Qed.

  (** the endomorphism *)
  Variable beta : F.
  Hypothesis Hbeta : FieldTrait.fmul (FieldTrait.fmul beta beta) beta = fone.
  Definition endo (A : point F) : point F :=
    match A with None => None | Some (x, y) => Some (FieldTrait.fmul beta x, y) end.
  Lemma endo_on A : on_curve b A -> on_curve b (endo A).
  Proof. destruct A as [[x y]|]; cbn [endo on_curve]; [|auto]. intros ->. ring [Hbeta]. Qed.
  Lemma beta_nonzero : beta <> fzero.
  Proof. intros E. apply (fone_neq_zero OL). rewrite <- Hbeta, E. ring. Qed.
  Lemma endo_sum A B C : sum_of A B C -> sum_of (endo A) (endo B) (endo C).
  Proof.
    intros [B0|A0|x y|x1 y1 x2 y2 l Hx Hl|x y l Hy Hl]; cbn [endo]; try constructor.
    - unfold third. cbn [endo].
      match goal with |- sum_of ?a ?c (Some (?X, ?Y)) =>
        replace (Some (X, Y)) with (third (FieldTrait.fmul (FieldTrait.fmul beta beta) l) (FieldTrait.fmul beta x1) y1 (FieldTrait.fmul beta x2))
          by (unfold third; f_equal; f_equal; ring [Hbeta]) end.
      apply sum_chord.
      + intro E. apply Hx. apply (fmul_cancel_r OL _ _ beta beta_nonzero). rewrite !(fun a => ltac:(ring) : FieldTrait.fmul a beta = FieldTrait.fmul beta a). exact E.
      + rewrite <- Hl. ring [Hbeta].
    - unfold third. cbn [endo].
      match goal with |- sum_of ?a ?c (Some (?X, ?Y)) =>
        replace (Some (X, Y)) with (third (FieldTrait.fmul (FieldTrait.fmul beta beta) l) (FieldTrait.fmul beta x) y (FieldTrait.fmul beta x))
          by (unfold third; f_equal; f_equal; ring [Hbeta]) end.
      apply sum_tangent; [exact Hy|].
      transitivity (FieldTrait.fmul (FieldTrait.fmul beta beta) (FieldTrait.fmul l (FieldTrait.fadd y y))); [ring|]. rewrite Hl. ring.
  Qed.
  Definition ec_endo (g : ECG) : ECG := ec_mk FL b _ (endo_on _ (ec_on FL b g)).
  Lemma ec_endo_gp g h : ec_endo (gp g h) = gp (ec_endo g) (ec_endo h).
  Proof.
    apply (ec_eq b). apply (sum_fun FL b no_root); [apply (ec_on FL)|apply (ec_on FL)|].
    apply endo_sum. apply (gadd_sum FL b no_root); apply (ec_on FL).
  Qed.
  Lemma ec_endo_g0 : ec_endo g0 = g0. Proof. apply (ec_eq b). reflexivity. Qed.
  Lemma ec_endo_pmul z g : 0 <= z -> ec_endo (zmul z g) = zmul z (ec_endo g).
  Proof.
    intro H. pattern z. apply natlike_ind; [exact ec_endo_g0| |exact H].
    intros x Hx IH. rewrite !zmul_succ, ec_endo_gp, IH. reflexivity.
  Qed.
  (** what holds of the generator holds of every point *)
  Variables (r lambda : Z) (g : ECG).
  Hypothesis r_prime : prime r.
  Hypothesis r_odd : r mod 2 = 1.
  Hypothesis small : 2 * p + 1 < 3 * r.
  Hypothesis g_order : zmul r g = g0.
  Hypothesis g_nonzero : g <> g0.
  Hypothesis g_endo : zmul lambda g = ec_endo g.
  Lemma ec_cyclic (a : ECG) : exists k, 0 <= k < r /\ a = zmul k g.
  Proof. exact (cyclic pcode (2 * p + 1) r g pcode_inj pcode_range r_prime r_odd small g_order g_nonzero no_two_torsion a). Qed.
  Lemma ec_order (a : ECG) : zmul r a = g0.
  Proof. exact (order_all pcode (2 * p + 1) r g pcode_inj pcode_range r_prime r_odd small g_order g_nonzero no_two_torsion a). Qed.
  Lemma ec_endo_all (a : ECG) : ec_endo a = zmul lambda a.
  Proof.
    destruct (ec_cyclic a) as (k & Hk & ->). rewrite ec_endo_pmul by lia. rewrite <- g_endo, <- !zmul_mul, Z.mul_comm. reflexivity.
  Qed.
End Count.
