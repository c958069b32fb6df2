(** Limb-level statements for both fields at once. *)
From Coq Require Import ZArith List Lia Znumtheory Zpow_facts Bool.
From Verif Require Import Lib.ZMod Model.FieldLimbs Model.FieldInst Spec.FieldSpec Spec.FieldLaws
  Proofs.FieldLimbsP Proofs.FieldRepP Proofs.Primes Proofs.FieldInstP Proofs.FpFq.
Import ListNotations.
Open Scope Z_scope.

Lemma halo_ok P : halo_field P -> params_ok P.
Proof. intros [->| ->]; [exact fp_ok|exact fq_ok]. Qed.
Lemma halo_consts P : halo_field P -> consts_ok P.
Proof. intros [->| ->]; [exact fp_consts|exact fq_consts]. Qed.
Lemma halo_z0 P : halo_field P -> canonicalb P fe_zero = true.
Proof. intros [->| ->]; reflexivity. Qed.

Lemma mod_pow_spec m x n : 0 < m -> mod_pow m x n = x ^ Z.of_nat n mod m.
Proof.
  intros Hm. induction n as [|n IH]; [reflexivity|].
  cbn [mod_pow]. rewrite IH, Zmult_mod_idemp_r, Nat2Z.inj_succ, Z.pow_succ_r by lia. reflexivity.
Qed.

Lemma arith_all P : halo_field P -> forall a b x y, represents P a x -> represents P b y ->
  represents P (fe_add P a b) ((x + y) mod modulus P) /\
  represents P (fe_sub P a b) ((x - y) mod modulus P) /\
  represents P (fe_mul P a b) ((x * y) mod modulus P) /\
  represents P (fe_neg P a) ((- x) mod modulus P) /\
  represents P (fe_double P a) ((2 * x) mod modulus P) /\
  represents P (fe_square P a) ((x * x) mod modulus P) /\
  (fe_ct_eq a b = true <-> x = y) /\ (fe_is_zero a = true <-> x = 0).
Proof.
  intros H a b x y Ha Hb. pose proof (halo_ok P H) as OK.
  split; [apply add_rep; assumption|]. split; [apply sub_rep; assumption|].
  split; [apply mul_rep; assumption|]. split; [apply neg_rep; assumption|].
  split; [apply double_rep; assumption|]. split; [apply square_rep; assumption|].
  split.
  - rewrite (ct_eq_rep P OK _ _ _ _ Ha Hb). apply Z.eqb_eq.
  - unfold fe_is_zero. rewrite (ct_eq_rep P OK _ _ _ _ Ha (zero_rep P OK)). apply Z.eqb_eq.
Qed.

Lemma rep_bij P : halo_field P ->
  (forall a, canonical P a -> exists! x, represents P a x) /\
  (forall x, 0 <= x < modulus P -> exists! a, represents P a x).
Proof.
  intros H. pose proof (halo_ok P H) as OK. split.
  - intros a C. destruct (rep_total P OK a C) as [x Hx]. exists x. split; [exact Hx|].
    intros y Hy. eapply rep_fun; eassumption.
  - intros x Hx.
    destruct (ol_surj _ _ _ (FE_laws P OK (halo_consts P H) (halo_z0 P H)) x Hx) as [a Ha].
    assert (R : represents P (proj P a) x) by (rewrite <- Ha; exact (rep_val P OK a)).
    exists (proj P a). split; [exact R|]. intros b Hb. eapply rep_inj; eassumption.
Qed.

Lemma val_bound_raw P v : halo_field P -> wf_limbs v -> represents P (fe_from_raw P v) (val v mod modulus P).
Proof. intros H W. apply from_raw_rep; [apply halo_ok, H|exact W]. Qed.

Lemma conv_all P : halo_field P ->
  (forall b, represents P (fe_from_bool P b) (if b then 1 else 0)) /\
  (forall n, 0 <= n < 2 ^ 64 -> represents P (fe_from P n) n /\ represents P (fe_from_u64 P n) n) /\
  (forall n, 0 <= n < 2 ^ 128 -> represents P (fe_from_u128 P n) n) /\
  (forall w, wf_limbs w -> represents P (fe_from_raw P w) (val w mod modulus P)) /\
  (forall bs, length bs = 64%nat -> Forall is_byte bs ->
     represents P (fe_from_bytes_wide P bs) (le_value bs mod modulus P)).
Proof.
  intros H. pose proof (halo_ok P H) as OK.
  split; [intros; apply from_bool_rep, OK|].
  split; [intros n Hn; split; [apply from_rep|apply from_u64_rep]; assumption|].
  split; [intros; apply from_u128_rep; assumption|].
  split; [intros; apply from_raw_rep; assumption|].
  intros; apply from_bytes_wide_rep; assumption.
Qed.

Lemma le_value_inj : forall a b, Forall is_byte a -> Forall is_byte b -> length a = length b ->
  le_value a = le_value b -> a = b.
Proof.
  induction a as [|x a IH]; intros [|y b] Ha Hb L E; try discriminate; [reflexivity|].
  inversion Ha as [|? ? Hx Ha']; inversion Hb as [|? ? Hy Hb']; subst. cbn [le_value] in E.
  unfold is_byte in *.
  assert (x = y) by lia. subst y. f_equal. apply IH; [exact Ha'|exact Hb'|cbn in L; congruence|lia].
Qed.

Lemma bytes_all P : halo_field P ->
  (forall a x, represents P a x ->
     length (fe_to_bytes P a) = 32%nat /\ Forall is_byte (fe_to_bytes P a) /\
     le_value (fe_to_bytes P a) = x /\ fe_from_bytes P (fe_to_bytes P a) = Some a) /\
  (forall bs, length bs = 32%nat -> Forall is_byte bs ->
     (le_value bs < modulus P -> exists a, fe_from_bytes P bs = Some a /\
        represents P a (le_value bs) /\ fe_to_bytes P a = bs) /\
     (modulus P <= le_value bs -> fe_from_bytes P bs = None)).
Proof.
  intros H. pose proof (halo_ok P H) as OK. split.
  - intros a x Ha. destruct (to_bytes_rep P OK a x Ha) as (L & B & V).
    split; [exact L|]. split; [exact B|]. split; [exact V|].
    destruct (from_bytes_spec P OK _ L B) as [S _]. destruct S as (b & E & R).
    { rewrite V. apply Ha. }
    rewrite E. f_equal. rewrite V in R. eapply rep_inj; eassumption.
  - intros bs L B. destruct (from_bytes_spec P OK _ L B) as [S N]. split; [|exact N].
    intros Hlt. destruct (S Hlt) as (a & E & R). exists a. split; [exact E|]. split; [exact R|].
    destruct (to_bytes_rep P OK a _ R) as (L' & B' & V').
    apply le_value_inj; [exact B'|exact B|congruence|exact V'].
Qed.

Lemma pow_all P : halo_field P -> forall a x e, represents P a x -> wf_limbs e ->
  fe_pow P a e = fe_pow_vartime P a e /\
  represents P (fe_pow P a e) (mod_pow (modulus P) x (Z.to_nat (val e))).
Proof.
  intros H a x e Ha He. pose proof (halo_ok P H) as OK.
  pose proof (pow_rep P OK a x e Ha He) as R1. pose proof (pow_vartime_rep P OK a x e Ha He) as R2.
  split; [exact (rep_inj P _ _ _ R1 R2)|].
  pose proof (wf_bound e He). rewrite mod_pow_spec, Z2Nat.id by (pose proof (ok_mlo P OK); lia). exact R1.
Qed.

Lemma inv_all P : halo_field P -> forall a x, represents P a x ->
  (x = 0 -> fe_invert P a = None) /\
  (x <> 0 -> exists b, fe_invert P a = Some b /\
     exists y, represents P b y /\ (x * y) mod modulus P = 1 /\
       forall z, 0 <= z < modulus P -> (x * z) mod modulus P = 1 -> z = y).
Proof.
  intros H a x Ha. pose proof (halo_ok P H) as OK. pose proof (halo_consts P H) as CK. split.
  - intros ->. apply fe_invert_zero; assumption.
  - intros Hx. destruct (fe_invert_nonzero P OK CK (halo_z0 P H) a x Ha Hx) as (b & y & E & R & Hy).
    exists b. split; [exact E|]. exists y. split; [exact R|]. split; [exact Hy|].
    intros z Hz Ez. destruct R as (_ & Ry & _).
    rewrite <- (Z.mod_small z (modulus P)) by exact Hz. rewrite <- (Z.mod_small y (modulus P)) by exact Ry.
    replace (z mod modulus P) with ((z * (x * y)) mod modulus P).
    2:{ rewrite <- Zmult_mod_idemp_r, Hy, Z.mul_1_r. reflexivity. }
    replace (z * (x * y)) with (x * z * y) by ring.
    rewrite <- Zmult_mod_idemp_l, Ez, Z.mul_1_l. reflexivity.
Qed.

Lemma sqrt_all P : halo_field P -> forall a x, represents P a x ->
  ((exists z, (z * z) mod modulus P = x) <-> fe_sqrt P a <> None) /\
  (forall b, fe_sqrt P a = Some b -> exists y, represents P b y /\ (y * y) mod modulus P = x).
Proof.
  intros H a x Ha. pose proof (halo_ok P H) as OK. pose proof (halo_consts P H) as CK.
  pose proof (halo_z0 P H) as Z0. split; [split|].
  - intros (z & Hz) E. exact (fe_sqrt_none P OK CK Z0 a x Ha E z Hz).
  - intros E. destruct (fe_sqrt P a) as [b|] eqn:Eb; [|contradiction].
    destruct (fe_sqrt_some P OK CK Z0 a x b Ha Eb) as (z & _ & Hz). exists z. exact Hz.
  - intros b Eb. exact (fe_sqrt_some P OK CK Z0 a x b Ha Eb).
Qed.

Lemma order_two_pow m w n : 2 < m -> 0 <= n -> w ^ (2 ^ n) mod m = m - 1 ->
  w ^ (2 ^ (n + 1)) mod m = 1 /\ forall k, 0 < k < 2 ^ (n + 1) -> w ^ k mod m <> 1.
Proof.
  intros Hm Hn HA.
  assert (E32 : 2 ^ (n + 1) = 2 ^ n * 2) by (rewrite Z.pow_add_r by lia; reflexivity).
  remember (2 ^ n) as e eqn:Ee. remember (2 ^ (n + 1)) as e2 eqn:Ee2.
  assert (He : 0 < e) by (subst e; apply Z.pow_pos_nonneg; lia).
  assert (Full : w ^ e2 mod m = 1).
  { rewrite E32, Z.pow_mul_r by lia.
    rewrite <- pow_mod by lia. rewrite HA.
    replace ((m - 1) ^ 2) with (1 + (m - 2) * m) by ring.
    rewrite Z_mod_plus_full. apply Z.mod_small. lia. }
  split; [exact Full|].
  intros k Hk Ek. set (g := Z.gcd k e2).
  assert (Ng : 0 <= g) by (apply Z.gcd_nonneg).
  assert (G1 : w ^ g mod m = 1).
  { destruct (Z.gcd_bezout k e2 g eq_refl) as (u & t & Hut).
    set (c := Z.abs u + Z.abs t).
    assert (Id : (u + c * e2) * k + (t + c * k) * e2 = g + 2 * c * k * e2) by (rewrite <- Hut; ring).
    assert (Hc : 0 <= c) by (unfold c; lia).
    assert (N1 : 0 <= u + c * e2).
    { assert (c * 1 <= c * e2) by (apply Z.mul_le_mono_nonneg_l; lia). unfold c in *. lia. }
    assert (N2 : 0 <= t + c * k).
    { assert (c * 1 <= c * k) by (apply Z.mul_le_mono_nonneg_l; lia). unfold c in *. lia. }
    clearbody c.
    assert (M1 : 0 <= (u + c * e2) * k) by (apply Z.mul_nonneg_nonneg; lia).
    assert (M2 : 0 <= (t + c * k) * e2) by (apply Z.mul_nonneg_nonneg; lia).
    assert (M3 : 0 <= 2 * c * k) by (apply Z.mul_nonneg_nonneg; lia).
    assert (M4 : 0 <= 2 * c * k * e2) by (apply Z.mul_nonneg_nonneg; lia).
    assert (Lhs : w ^ ((u + c * e2) * k + (t + c * k) * e2) mod m = 1).
    { rewrite Z.pow_add_r by assumption.
      rewrite (Z.mul_comm (u + c * e2) k), (Z.mul_comm (t + c * k) e2), !Z.pow_mul_r by (assumption || (clear - Hk; lia)).
      rewrite Zmult_mod, <- (pow_mod (w ^ k)), <- (pow_mod (w ^ e2)), Ek, Full, !Z.pow_1_l by lia.
      rewrite (Z.mod_small 1) by lia. apply Z.mod_small. lia. }
    rewrite Id, Z.pow_add_r in Lhs by assumption.
    rewrite (Z.mul_comm (2 * c * k) e2) in Lhs. rewrite Z.pow_mul_r in Lhs by (assumption || (clear - Hk; lia)).
    rewrite Zmult_mod, <- (pow_mod (w ^ e2)), Full, Z.pow_1_l, (Z.mod_small 1), Z.mul_1_r, Zmod_mod in Lhs by lia.
    exact Lhs. }
  assert (Dg : (g | e)).
  { assert (D : (g | e2)) by apply Z.gcd_divide_r.
    assert (Gk : (g | k)) by apply Z.gcd_divide_l.
    assert (g <= k) by (apply Z.divide_pos_le; [lia|exact Gk]).
    destruct D as [c Hc].
    assert (Hgpos : 0 < g).
    { destruct (Z.eq_dec g 0) as [Eg|]; [|lia]. rewrite Eg, Z.mul_0_r in Hc. lia. }
    assert (Hcpos : 1 < c).
    { destruct (Z.le_gt_cases c 1) as [C1|]; [|assumption].
      assert (c * g <= 1 * g) by (apply Z.mul_le_mono_nonneg_r; lia). lia. }
    destruct (Z.Even_or_Odd c) as [[c' Ec]|Oc].
    - exists c'. rewrite E32 in Hc. lia.
    - exfalso. assert (Rc : rel_prime c e2).
      { rewrite Ee2. apply rel_prime_Zpower_r; [lia|]. apply rel_prime_sym. apply prime_rel_prime; [apply prime_2|].
        intros [c' Ec]. destruct Oc as [d Ed]. lia. }
      assert (Dc : (c | e2)) by (exists g; rewrite Hc; ring).
      destruct Rc as [_ _ Rc]. specialize (Rc c (Z.divide_refl c) Dc).
      apply Z.divide_1_r in Rc. lia. }
  destruct Dg as [d Hd].
  assert (0 <= d) by nia.
  rewrite Hd, Z.mul_comm, Z.pow_mul_r in HA by assumption.
  rewrite <- pow_mod in HA by lia. rewrite G1, Z.pow_1_l, Z.mod_small in HA by lia. lia.
Qed.

Lemma params_all P : halo_field P ->
  prime (modulus P) /\
  (exists w, represents P (ROOT_OF_UNITY P) w /\ w ^ (2 ^ 32) mod modulus P = 1 /\
     forall k, 0 < k < 2 ^ 32 -> w ^ k mod modulus P <> 1) /\
  (exists b, represents P (fe_BETA P) b /\ b <> 1 /\ b ^ 3 mod modulus P = 1) /\
  (forall x, 0 <= x < modulus P ->
     (x ^ cRESCUE_ALPHA) ^ val (cRESCUE_INVALPHA P) mod modulus P = x /\
     (x ^ val (cRESCUE_INVALPHA P)) ^ cRESCUE_ALPHA mod modulus P = x).
Proof.
  intros H. pose proof (halo_ok P H) as OK. pose proof (halo_consts P H) as CK.
  pose proof (halo_z0 P H) as Z0. pose proof (FE_field_laws P OK CK Z0) as L.
  pose proof (ck_prime P CK) as Pr. pose proof (prime_ge_2 _ Pr) as P2.
  split; [exact Pr|]. split; [|split].
  - pose proof (fl_ALPHA _ _ _ L) as HA.
    exists (FEval P (f_ALPHA (f := FEfield P Z0))). set (w := FEval P (f_ALPHA (f := FEfield P Z0))) in *.
    assert (Rw : represents P (ROOT_OF_UNITY P) w).
    { pose proof (rep_val P OK (f_ALPHA (f := FEfield P Z0))) as R. cbn [f_ALPHA FEfield] in R.
      rewrite proj_inj in R; [exact R|exact OK|apply OK]. }
    clearbody w. split; [exact Rw|].
    apply (order_two_pow (modulus P) w 31); [apply (ol_odd _ _ _ (fl_ops _ _ _ L))|discriminate|exact HA].
  - exists (val (BETA_raw P)). split; [apply beta_rep; assumption|]. split; [apply CK|].
    replace (val (BETA_raw P) ^ 3) with (val (BETA_raw P) * val (BETA_raw P) * val (BETA_raw P)) by ring.
    rewrite <- (Zmult_mod_idemp_l (val (BETA_raw P) * val (BETA_raw P))). apply CK.
  - intros x Hx.
    assert (G : forall e, 0 < e -> e mod (modulus P - 1) = 1 -> x ^ e mod modulus P = x).
    { intros e He Hm. destruct (Z.eq_dec x 0) as [->|Nx]; [rewrite Z.pow_0_l by exact He; reflexivity|].
      rewrite (Z.div_mod e (modulus P - 1)) by (pose proof (ol_odd _ _ _ (fl_ops _ _ _ L)); lia). rewrite Hm.
      assert (Hd : 0 <= e / (modulus P - 1)) by (apply Z.div_pos; pose proof (ol_odd _ _ _ (fl_ops _ _ _ L)); lia).
      rewrite Z.pow_add_r, Z.pow_1_r, Z.pow_mul_r by (try apply Z.mul_nonneg_nonneg; lia).
      rewrite <- Zmult_mod_idemp_l, <- pow_mod by lia.
      rewrite (fermat_little (modulus P) x Pr) by (rewrite Z.mod_small by exact Hx; exact Nx).
      rewrite Z.pow_1_l by exact Hd. rewrite (Z.mod_small 1) by lia. rewrite Z.mul_1_l. apply Z.mod_small, Hx. }
    pose proof (ck_ia P CK) as Ia. pose proof (wf_bound _ (ck_ia_wf P CK)) as [Ia0 _].
    assert (Iap : 0 < val (cRESCUE_INVALPHA P)).
    { destruct (Z.eq_dec (val (cRESCUE_INVALPHA P)) 0) as [E|]; [|lia]. rewrite E in Ia. discriminate Ia. }
    change cRESCUE_ALPHA with 5.
    rewrite <- !Z.pow_mul_r by lia. rewrite (Z.mul_comm _ 5). split; (apply G; [lia|exact Ia]).
Qed.
