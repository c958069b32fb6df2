From Coq Require Import ZArith List Lia Znumtheory Bool Zpow_facts.
From Verif Require Import Model.FieldLimbs Spec.FieldSpec.
Import ListNotations.
Open Scope Z_scope.

Lemma w64_val : w64 = 18446744073709551616. Proof. reflexivity. Qed.
Lemma w128_val : w128 = 340282366920938463463374607431768211456. Proof. reflexivity. Qed.
Lemma w128_w64 : w128 = w64 * w64. Proof. reflexivity. Qed.

Definition u64 x := 0 <= x < w64.
Lemma is_u64_eq x : is_u64 x = u64 x. Proof. reflexivity. Qed.

Lemma split128 r : 0 <= r < w128 ->
  let lo := r mod w64 in let hi := (Z.shiftr r 64) mod w64 in
  lo + w64 * hi = r /\ u64 lo /\ u64 hi.
Proof.
  intros H lo hi. unfold lo, hi, u64. clear lo hi.
  rewrite Z.shiftr_div_pow2 by lia. change (2 ^ 64) with w64.
  assert (Hw : 0 < w64) by reflexivity.
  assert (0 <= r / w64 < w64).
  { split. apply Z.div_pos; lia. apply Z.div_lt_upper_bound. lia. rewrite <- w128_w64. lia. }
  rewrite (Z.mod_small (r / w64)) by lia.
  pose proof (Z.div_mod r w64 ltac:(lia)). pose proof (Z.mod_pos_bound r w64 Hw). lia.
Qed.

Lemma adc_spec a b c : u64 a -> u64 b -> u64 c ->
  exists lo hi, adc a b c = (lo, hi) /\ lo + w64 * hi = a + b + c /\ u64 lo /\ 0 <= hi <= 2
    /\ (c <= 1 -> hi <= 1).
Proof.
  intros Ha Hb Hc. unfold adc. eexists; eexists; split; [reflexivity|].
  unfold u64 in *.
  assert (E : (a + b + c) mod w128 = a + b + c).
  { apply Z.mod_small. rewrite w128_val; rewrite w64_val in *. lia. }
  rewrite E. destruct (split128 (a+b+c)) as (H1 & H2 & H3).
  { rewrite w128_val; rewrite w64_val in *. lia. }
  unfold u64 in *. rewrite H1. split; [reflexivity|]. split; [exact H2|].
  rewrite w64_val in *. lia.
Qed.

Lemma mac_spec a b c d : u64 a -> u64 b -> u64 c -> u64 d ->
  exists lo hi, mac a b c d = (lo, hi) /\ lo + w64 * hi = a + b * c + d /\ u64 lo /\ u64 hi.
Proof.
  intros Ha Hb Hc Hd. unfold mac. eexists; eexists; split; [reflexivity|].
  unfold u64 in *.
  assert (Hbd : 0 <= a + b * c + d < w128).
  { rewrite w128_w64. split. nia.
    assert (b * c <= (w64 - 1) * (w64 - 1)) by (apply Z.mul_le_mono_nonneg; lia).
    nia. }
  rewrite (Z.mod_small _ _ Hbd).
  destruct (split128 _ Hbd) as (H1 & H2 & H3). unfold u64 in *.
  rewrite H1. repeat split; tauto.
Qed.

(** A borrow word is either 0 or all ones. *)
Definition isborrow (b : Z) (n : Z) := (b = 0 /\ n = 0) \/ (b = w64 - 1 /\ n = 1).

Lemma sbb_spec a b bo n : u64 a -> u64 b -> isborrow bo n ->
  exists lo bo' n', sbb a b bo = (lo, bo') /\ lo - w64 * n' = a - b - n /\ u64 lo /\ isborrow bo' n'.
Proof.
  intros Ha Hb Hbo. unfold sbb.
  assert (E : Z.shiftr bo 63 = n).
  { destruct Hbo as [[-> ->]|[-> ->]]; reflexivity. }
  rewrite E. assert (Hn : n = 0 \/ n = 1) by (destruct Hbo; lia). clear E Hbo.
  unfold u64 in *.
  set (d := a - (b + n)).
  destruct (Z_lt_le_dec d 0) as [Hd|Hd].
  - assert (E : d mod w128 = d + w128).
    { symmetry. apply (Z.mod_unique_pos d w128 (-1)); unfold d in *; rewrite ?w128_val in *; rewrite w64_val in *; lia. }
    rewrite E.
    destruct (split128 (d + w128)) as (H1 & H2 & H3).
    { unfold d in *; rewrite ?w128_val in *; rewrite w64_val in *; lia. }
    set (lo := (d + w128) mod w64) in *. set (hi := (Z.shiftr (d + w128) 64) mod w64) in *.
    exists lo, hi, 1. split; [reflexivity|]. unfold u64 in *.
    unfold isborrow. unfold d in *; rewrite ?w128_val in *; rewrite w64_val in *. lia.
  - rewrite (Z.mod_small d) by (unfold d in *; rewrite ?w128_val in *; rewrite w64_val in *; lia).
    destruct (split128 d) as (H1 & H2 & H3).
    { unfold d in *; rewrite ?w128_val in *; rewrite w64_val in *; lia. }
    set (lo := d mod w64) in *. set (hi := (Z.shiftr d 64) mod w64) in *.
    exists lo, hi, 0. split; [reflexivity|]. unfold u64 in *.
    unfold isborrow. unfold d in *; rewrite ?w128_val in *; rewrite w64_val in *. lia.
Qed.

Lemma sbb_borrow0 : isborrow 0 0. Proof. left; auto. Qed.

Lemma wf_mk a b c d : u64 a -> u64 b -> u64 c -> u64 d -> wf_limbs (L4 a b c d).
Proof. intros; unfold wf_limbs; cbn [l0 l1 l2 l3]; rewrite !is_u64_eq; tauto. Qed.

Definition val4 a b c d := a + w64 * (b + w64 * (c + w64 * d)).
Lemma val_val4 a : val a = val4 (l0 a) (l1 a) (l2 a) (l3 a).
Proof. unfold val, val4. change (2^64) with w64. change (2^128) with (w64*w64).
  change (2^192) with (w64*w64*w64). ring. Qed.
Definition w256 := 2 ^ 256.
Lemma w256_val : w256 = 115792089237316195423570985008687907853269984665640564039457584007913129639936.
Proof. reflexivity. Qed.
Lemma val4_bound a b c d : u64 a -> u64 b -> u64 c -> u64 d -> 0 <= val4 a b c d < w256.
Proof. unfold u64, val4. rewrite w256_val, w64_val. lia. Qed.

Lemma land_ones64 x : u64 x -> Z.land x (w64 - 1) = x.
Proof. intros H. change (w64 - 1) with (Z.ones 64). rewrite Z.land_ones by lia.
  apply Z.mod_small. exact H. Qed.

Section Generic.
  Variable P : fparams.
  Notation m := (modulus P).
  Definition m0 := l0 (MODULUS P).
  Definition m1 := l1 (MODULUS P).
  Definition m2 := l2 (MODULUS P).
  Definition m3 := l3 (MODULUS P).

  (** What the development needs to know about the constants. *)
  Record params_ok : Prop := {
    ok_m : wf_limbs (MODULUS P);
    ok_mlo : 2 ^ 254 < m;
    ok_mhi : m < 2 ^ 255;
    ok_modd : m mod 2 = 1;
    ok_inv : u64 (INV P);
    ok_inv_eq : (INV P * l0 (MODULUS P)) mod w64 = w64 - 1;
    ok_Rc : canonical P (cR P);
    ok_R : val (cR P) = (2 ^ 256) mod m;
    ok_R2c : canonical P (cR2 P);
    ok_R2 : val (cR2 P) = (2 ^ 512) mod m;
    ok_R3c : canonical P (cR3 P);
    ok_R3 : val (cR3 P) = (2 ^ 768) mod m;
    ok_rootc : canonical P (ROOT_OF_UNITY P)
  }.
  Hypothesis OK : params_ok.

  Lemma m_val4 : m = val4 m0 m1 m2 m3. Proof. apply val_val4. Qed.
  Lemma m0_u : u64 m0. Proof. apply OK. Qed.
  Lemma m1_u : u64 m1. Proof. apply OK. Qed.
  Lemma m2_u : u64 m2. Proof. apply OK. Qed.
  Lemma m3_u : u64 m3. Proof. apply OK. Qed.
  Lemma m_pos : 0 < m. Proof. pose proof (ok_mlo OK). lia. Qed.

  Lemma wf_bound a : wf_limbs a -> 0 <= val a < w256.
  Proof. intros (H0 & H1 & H2 & H3). rewrite val_val4. apply val4_bound; assumption. Qed.

  (** Subtraction with conditional add-back. *)
  Lemma fe_sub_spec a b : wf_limbs a -> wf_limbs b ->
    - m <= val a - val b < m ->
    wf_limbs (fe_sub P a b) /\
    val (fe_sub P a b) = val a - val b + (if val a <? val b then m else 0).
  Proof.
    intros (A0 & A1 & A2 & A3) (B0 & B1 & B2 & B3) Hr.
    rewrite !is_u64_eq in *.
    pose proof m0_u as M0. pose proof m1_u as M1. pose proof m2_u as M2. pose proof m3_u as M3.
    pose proof (ok_mhi OK) as Mhi. pose proof m_pos as Mpos.
    unfold fe_sub. fold m0 m1 m2 m3.
    destruct (sbb_spec (l0 a) (l0 b) 0 0 A0 B0 sbb_borrow0) as (d0 & b0 & n0 & E0 & V0 & D0 & K0).
    rewrite E0.
    destruct (sbb_spec (l1 a) (l1 b) b0 n0 A1 B1 K0) as (d1 & b1 & n1 & E1 & V1 & D1 & K1).
    rewrite E1.
    destruct (sbb_spec (l2 a) (l2 b) b1 n1 A2 B2 K1) as (d2 & b2 & n2 & E2 & V2 & D2 & K2).
    rewrite E2.
    destruct (sbb_spec (l3 a) (l3 b) b2 n2 A3 B3 K2) as (d3 & b3 & n3 & E3 & V3 & D3 & K3).
    rewrite E3.
    assert (V : val4 d0 d1 d2 d3 - w256 * n3 = val a - val b).
    { rewrite !val_val4. unfold val4. rewrite w256_val in *. rewrite w64_val in *. lia. }
    pose proof (val4_bound _ _ _ _ D0 D1 D2 D3) as Hb.
    assert (Hlt : (val a <? val b) = (n3 =? 1)).
    { destruct K3 as [[_ ->]|[_ ->]]; [apply Z.ltb_ge|apply Z.ltb_lt]; lia. }
    rewrite Hlt.
    assert (Hmask : forall x, u64 x -> Z.land x b3 = if n3 =? 1 then x else 0).
    { intros x Hx. destruct K3 as [[-> ->]|[-> ->]]; cbn [Z.eqb Pos.eqb].
      apply Z.land_0_r. apply land_ones64, Hx. }
    rewrite !Hmask by assumption.
    assert (Hu : forall x, u64 x -> u64 (if n3 =? 1 then x else 0)).
    { intros x Hx. destruct (n3 =? 1); [exact Hx|]. unfold u64; rewrite w64_val; lia. }
    assert (Z0 : u64 0) by (unfold u64; rewrite w64_val; lia).
    destruct (adc_spec d0 _ 0 D0 (Hu _ M0) Z0) as (s0 & c0 & F0 & W0 & S0 & C0 & C0').
    rewrite F0.
    destruct (adc_spec d1 _ c0 D1 (Hu _ M1)) as (s1 & c1 & F1 & W1 & S1 & C1 & C1').
    { unfold u64; rewrite w64_val; lia. }
    rewrite F1.
    destruct (adc_spec d2 _ c1 D2 (Hu _ M2)) as (s2 & c2 & F2 & W2 & S2 & C2 & C2').
    { unfold u64; rewrite w64_val; lia. }
    rewrite F2.
    destruct (adc_spec d3 _ c2 D3 (Hu _ M3)) as (s3 & c3 & F3 & W3 & S3 & C3 & C3').
    { unfold u64; rewrite w64_val; lia. }
    rewrite F3.
    pose proof m_val4 as Mv. unfold val4 in Mv.
    pose proof (val4_bound _ _ _ _ S0 S1 S2 S3) as Hs.
    split. { apply wf_mk; assumption. }
    rewrite val_val4. cbn [l0 l1 l2 l3].
    assert (W : val4 s0 s1 s2 s3 + w256 * c3 = val4 d0 d1 d2 d3 + (if n3 =? 1 then m else 0)).
    { rewrite Mv. unfold val4. rewrite w256_val. rewrite w64_val in *.
      destruct (n3 =? 1); lia. }
    clear - W V Hb Hs K3 Hr Mhi Mpos C3.
    assert (2 ^ 255 < w256) by reflexivity.
    destruct K3 as [[_ ->]|[_ ->]]; cbn [Z.eqb Pos.eqb] in *; rewrite w256_val in *; lia.
  Qed.

  Lemma canonical_MODULUS_wf : wf_limbs (MODULUS P). Proof. apply OK. Qed.

  (** Reduction of a value below twice the modulus. *)
  Lemma fe_sub_modulus a : wf_limbs a -> val a < 2 * m ->
    canonical P (fe_sub P a (MODULUS P)) /\ val (fe_sub P a (MODULUS P)) = val a mod m.
  Proof.
    intros Hw Hlt. pose proof (wf_bound _ Hw) as Hb. pose proof m_pos as Hm.
    destruct (fe_sub_spec a (MODULUS P) Hw canonical_MODULUS_wf) as [W V].
    { fold m. lia. }
    fold m in V.
    assert (E : val a mod m = val a - m + (if val a <? m then m else 0)).
    { destruct (Z.ltb_spec (val a) m).
      - rewrite Z.mod_small by lia. lia.
      - symmetry. apply (Z.mod_unique_pos _ m 1); lia. }
    rewrite <- E in V. split; [|exact V]. split; [exact W|].
    rewrite V. apply Z.mod_pos_bound. exact Hm.
  Qed.

  Lemma fe_add_spec a b : canonical P a -> canonical P b ->
    canonical P (fe_add P a b) /\ val (fe_add P a b) = (val a + val b) mod m.
  Proof.
    intros [(A0 & A1 & A2 & A3) Ac] [(B0 & B1 & B2 & B3) Bc].
    rewrite !is_u64_eq in *. unfold fe_add.
    pose proof (ok_mhi OK) as Mhi.
    assert (Z0 : u64 0) by (unfold u64; rewrite w64_val; lia).
    destruct (adc_spec (l0 a) (l0 b) 0 A0 B0 Z0) as (s0 & c0 & F0 & W0 & S0 & C0 & C0').
    rewrite F0.
    destruct (adc_spec (l1 a) (l1 b) c0 A1 B1) as (s1 & c1 & F1 & W1 & S1 & C1 & C1').
    { unfold u64; rewrite w64_val; lia. }
    rewrite F1.
    destruct (adc_spec (l2 a) (l2 b) c1 A2 B2) as (s2 & c2 & F2 & W2 & S2 & C2 & C2').
    { unfold u64; rewrite w64_val; lia. }
    rewrite F2.
    destruct (adc_spec (l3 a) (l3 b) c2 A3 B3) as (s3 & c3 & F3 & W3 & S3 & C3 & C3').
    { unfold u64; rewrite w64_val; lia. }
    rewrite F3.
    pose proof (val4_bound _ _ _ _ S0 S1 S2 S3) as Hs.
    assert (W : val4 s0 s1 s2 s3 + w256 * c3 = val a + val b).
    { rewrite !val_val4. unfold val4. rewrite w256_val. rewrite w64_val in *. lia. }
    assert (c3 = 0).
    { change (2^255) with (w256 / 2) in Mhi. assert (w256 / 2 * 2 = w256) by reflexivity.
      rewrite w256_val in *. lia. }
    subst c3.
    assert (V : val (L4 s0 s1 s2 s3) = val a + val b) by (rewrite val_val4; cbn [l0 l1 l2 l3]; lia).
    rewrite <- V. apply fe_sub_modulus.
    - apply wf_mk; assumption.
    - lia.
  Qed.

  Lemma fe_sub_canon a b : canonical P a -> canonical P b ->
    canonical P (fe_sub P a b) /\ val (fe_sub P a b) = (val a - val b) mod m.
  Proof.
    intros [Aw Ac] [Bw Bc]. pose proof (wf_bound _ Aw). pose proof (wf_bound _ Bw).
    pose proof m_pos.
    destruct (fe_sub_spec a b Aw Bw) as [W V]. lia.
    assert (E : (val a - val b) mod m = val a - val b + (if val a <? val b then m else 0)).
    { destruct (Z.ltb_spec (val a) (val b)).
      - symmetry. apply (Z.mod_unique_pos _ m (-1)); lia.
      - rewrite Z.mod_small; lia. }
    rewrite <- E in V. split; [|exact V]. split; [exact W|]. rewrite V.
    apply Z.mod_pos_bound; lia.
  Qed.

  Lemma lor4_zero a b c d : u64 a -> u64 b -> u64 c -> u64 d ->
    (Z.lor (Z.lor (Z.lor a b) c) d =? 0) = (val4 a b c d =? 0).
  Proof.
    intros Ha Hb Hc Hd. unfold u64, val4 in *.
    apply eq_true_iff_eq. rewrite !Z.eqb_eq. split; intros H.
    - apply Z.lor_eq_0_iff in H as [H ->]. apply Z.lor_eq_0_iff in H as [H ->].
      apply Z.lor_eq_0_iff in H as [-> ->]. reflexivity.
    - rewrite w64_val in *. assert (a = 0 /\ b = 0 /\ c = 0 /\ d = 0) as (-> & -> & -> & ->) by lia.
      reflexivity.
  Qed.

  Lemma fe_neg_spec a : canonical P a ->
    canonical P (fe_neg P a) /\ val (fe_neg P a) = (- val a) mod m.
  Proof.
    intros [(A0 & A1 & A2 & A3) Ac]. rewrite !is_u64_eq in *.
    pose proof m0_u as M0. pose proof m1_u as M1. pose proof m2_u as M2. pose proof m3_u as M3.
    unfold fe_neg. fold m0 m1 m2 m3.
    destruct (sbb_spec m0 (l0 a) 0 0 M0 A0 sbb_borrow0) as (d0 & b0 & n0 & E0 & V0 & D0 & K0).
    rewrite E0.
    destruct (sbb_spec m1 (l1 a) b0 n0 M1 A1 K0) as (d1 & b1 & n1 & E1 & V1 & D1 & K1).
    rewrite E1.
    destruct (sbb_spec m2 (l2 a) b1 n1 M2 A2 K1) as (d2 & b2 & n2 & E2 & V2 & D2 & K2).
    rewrite E2.
    destruct (sbb_spec m3 (l3 a) b2 n2 M3 A3 K2) as (d3 & b3 & n3 & E3 & V3 & D3 & K3).
    rewrite E3.
    rewrite lor4_zero by assumption. rewrite <- val_val4.
    pose proof (val4_bound _ _ _ _ D0 D1 D2 D3) as Hb.
    pose proof m_pos as Mp.
    assert (Ab : 0 <= val a) by (rewrite val_val4; apply val4_bound; assumption).
    assert (V : val4 d0 d1 d2 d3 - w256 * n3 = m - val a).
    { rewrite m_val4, val_val4. unfold val4. rewrite w256_val. rewrite w64_val in *. lia. }
    assert (n3 = 0). { destruct K3 as [[_ ->]|[_ ->]]; [reflexivity|]. lia. }
    subst n3.
    destruct (Z.eqb_spec (val a) 0) as [E|E].
    - change ((1 - 1) mod w64) with 0. rewrite !Z.land_0_r. rewrite E.
      split; [|rewrite Z.mod_0_l by lia; reflexivity].
      split. repeat split; cbn; lia. cbn. lia.
    - change ((0 - 1) mod w64) with (w64 - 1). rewrite !land_ones64 by assumption.
      assert (Ev : val (L4 d0 d1 d2 d3) = m - val a) by (rewrite val_val4; cbn [l0 l1 l2 l3]; lia).
      split. split.
      + apply wf_mk; assumption.
      + rewrite Ev. lia.
      + rewrite Ev. apply (Z.mod_unique_pos _ m (-1)); lia.
  Qed.

  (** One word of Montgomery reduction kills the low limb. *)
  Lemma mont_low r lo hi : u64 r ->
    mac r ((r * INV P) mod w64) m0 0 = (lo, hi) ->
    lo + w64 * hi = r + (r * INV P) mod w64 * m0 + 0 -> u64 lo -> lo = 0.
  Proof.
    intros Hr _ E Hlo.
    assert (Hz : (r + (r * INV P) mod w64 * m0) mod w64 = 0).
    { rewrite <- Zplus_mod_idemp_r, Zmult_mod_idemp_l, <- Z.mul_assoc.
      rewrite <- Zmult_mod_idemp_r. unfold m0. rewrite (ok_inv_eq OK).
      rewrite Zplus_mod_idemp_r. replace (r + r * (w64 - 1)) with (r * w64) by ring.
      apply Z_mod_mult. }
    replace (r + (r * INV P) mod w64 * m0) with (lo + hi * w64) in Hz by lia.
    rewrite Z_mod_plus_full in Hz. rewrite Z.mod_small in Hz by exact Hlo. exact Hz.
  Qed.

  Lemma inv_mod_u64 r : u64 ((r * INV P) mod w64).
  Proof. apply Z.mod_pos_bound. reflexivity. Qed.

  Definition val8 r0 r1 r2 r3 r4 r5 r6 r7 := val4 r0 r1 r2 r3 + w256 * val4 r4 r5 r6 r7.

  Ltac mac_step H :=
    match goal with
    | |- context [mac ?a ?b ?c ?d] =>
        let lo := fresh "lo" in let hi := fresh "hi" in
        let E := fresh "E" in let V := fresh "V" in let U := fresh "U" in let U' := fresh "U" in
        destruct (mac_spec a b c d) as (lo & hi & E & V & U & U');
        [assumption || apply inv_mod_u64 | assumption || apply inv_mod_u64
        | assumption || apply inv_mod_u64 | assumption || (unfold u64; rewrite w64_val; lia) |];
        rewrite E
    end.

  Lemma montgomery_reduce_spec r0 r1 r2 r3 r4 r5 r6 r7 :
    u64 r0 -> u64 r1 -> u64 r2 -> u64 r3 -> u64 r4 -> u64 r5 -> u64 r6 -> u64 r7 ->
    val8 r0 r1 r2 r3 r4 r5 r6 r7 < m * w256 ->
    let s := montgomery_reduce P r0 r1 r2 r3 r4 r5 r6 r7 in
    canonical P s /\ (val s * w256) mod m = (val8 r0 r1 r2 r3 r4 r5 r6 r7) mod m.
  Proof.
    intros H0 H1 H2 H3 H4 H5 H6 H7 Hlt. cbv zeta.
    pose proof m0_u as M0. pose proof m1_u as M1. pose proof m2_u as M2. pose proof m3_u as M3.
    assert (Z0 : u64 0) by (unfold u64; rewrite w64_val; lia).
    unfold montgomery_reduce. fold m0 m1 m2 m3.
    (* round 0 *)
    pose proof (inv_mod_u64 r0) as K0. 
    destruct (mac_spec r0 ((r0 * INV P) mod w64) m0 0 H0 K0 M0 Z0) as (x0 & c0 & E0 & V0 & X0 & C0).
    pose proof (mont_low _ _ _ H0 E0 V0 X0) as Hx0. rewrite E0. subst x0.
    set (k0 := (r0 * INV P) mod w64) in *. clearbody k0.
    destruct (mac_spec r1 k0 m1 c0 H1 K0 M1 C0) as (a1 & c1 & E1 & V1 & A1 & C1). rewrite E1.
    destruct (mac_spec r2 k0 m2 c1 H2 K0 M2 C1) as (a2 & c2 & E2 & V2 & A2 & C2). rewrite E2.
    destruct (mac_spec r3 k0 m3 c2 H3 K0 M3 C2) as (a3 & c3 & E3 & V3 & A3 & C3). rewrite E3.
    destruct (adc_spec r4 0 c3 H4 Z0 C3) as (a4 & q4 & E4 & V4 & A4 & Q4 & _). rewrite E4.
    assert (Q4' : u64 q4) by (unfold u64; rewrite w64_val; lia).
    clear E0 E1 E2 E3 E4.
    (* round 1 *)
    pose proof (inv_mod_u64 a1) as K1.
    destruct (mac_spec a1 ((a1 * INV P) mod w64) m0 0 A1 K1 M0 Z0) as (x1 & d1 & E0 & W0 & X1 & D1).
    pose proof (mont_low _ _ _ A1 E0 W0 X1) as Hx1. rewrite E0. subst x1.
    set (k1 := (a1 * INV P) mod w64) in *. clearbody k1.
    destruct (mac_spec a2 k1 m1 d1 A2 K1 M1 D1) as (b2 & d2 & E1 & W1 & B2 & D2). rewrite E1.
    destruct (mac_spec a3 k1 m2 d2 A3 K1 M2 D2) as (b3 & d3 & E2 & W2 & B3 & D3). rewrite E2.
    destruct (mac_spec a4 k1 m3 d3 A4 K1 M3 D3) as (b4 & d4 & E3 & W3 & B4 & D4). rewrite E3.
    destruct (adc_spec r5 q4 d4 H5 Q4' D4) as (b5 & q5 & E4 & W4 & B5 & Q5 & _). rewrite E4.
    assert (Q5' : u64 q5) by (unfold u64; rewrite w64_val; lia).
    clear E0 E1 E2 E3 E4.
    (* round 2 *)
    pose proof (inv_mod_u64 b2) as K2.
    destruct (mac_spec b2 ((b2 * INV P) mod w64) m0 0 B2 K2 M0 Z0) as (x2 & e1 & E0 & Y0 & X2 & F1).
    pose proof (mont_low _ _ _ B2 E0 Y0 X2) as Hx2. rewrite E0. subst x2.
    set (k2 := (b2 * INV P) mod w64) in *. clearbody k2.
    destruct (mac_spec b3 k2 m1 e1 B3 K2 M1 F1) as (g3 & e2 & E1 & Y1 & G3 & F2). rewrite E1.
    destruct (mac_spec b4 k2 m2 e2 B4 K2 M2 F2) as (g4 & e3 & E2 & Y2 & G4 & F3). rewrite E2.
    destruct (mac_spec b5 k2 m3 e3 B5 K2 M3 F3) as (g5 & e4 & E3 & Y3 & G5 & F4). rewrite E3.
    destruct (adc_spec r6 q5 e4 H6 Q5' F4) as (g6 & q6 & E4 & Y4 & G6 & Q6 & _). rewrite E4.
    assert (Q6' : u64 q6) by (unfold u64; rewrite w64_val; lia).
    clear E0 E1 E2 E3 E4.
    (* round 3 *)
    pose proof (inv_mod_u64 g3) as K3.
    destruct (mac_spec g3 ((g3 * INV P) mod w64) m0 0 G3 K3 M0 Z0) as (x3 & f1 & E0 & T0 & X3 & I1).
    pose proof (mont_low _ _ _ G3 E0 T0 X3) as Hx3. rewrite E0. subst x3.
    set (k3 := (g3 * INV P) mod w64) in *. clearbody k3.
    destruct (mac_spec g4 k3 m1 f1 G4 K3 M1 I1) as (h4 & f2 & E1 & T1 & J4 & I2). rewrite E1.
    destruct (mac_spec g5 k3 m2 f2 G5 K3 M2 I2) as (h5 & f3 & E2 & T2 & J5 & I3). rewrite E2.
    destruct (mac_spec g6 k3 m3 f3 G6 K3 M3 I3) as (h6 & f4 & E3 & T3 & J6 & I4). rewrite E3.
    destruct (adc_spec r7 q6 f4 H7 Q6' I4) as (h7 & q7 & E4 & T4 & J7 & Q7 & _). rewrite E4.
    clear E0 E1 E2 E3 E4.
    (* the telescoped identity *)
    set (K := val4 k0 k1 k2 k3).
    assert (HK : 0 <= K < w256) by (apply val4_bound; assumption).
    assert (Tot : val8 r0 r1 r2 r3 r4 r5 r6 r7 + K * m
                  = w256 * (val4 h4 h5 h6 h7 + w256 * q7)).
    { unfold val8, K. rewrite m_val4. unfold val4. rewrite w256_val. rewrite w64_val in *.
      clear - V0 V1 V2 V3 V4 W0 W1 W2 W3 W4 Y0 Y1 Y2 Y3 Y4 T0 T1 T2 T3 T4.
      (* eliminate from the top *)
      assert (R0 : r0 = 18446744073709551616 * c0 - k0 * m0) by lia.
      assert (R1 : r1 = a1 + 18446744073709551616 * c1 - k0 * m1 - c0) by lia.
      assert (R2 : r2 = a2 + 18446744073709551616 * c2 - k0 * m2 - c1) by lia.
      assert (R3 : r3 = a3 + 18446744073709551616 * c3 - k0 * m3 - c2) by lia.
      assert (R4 : r4 = a4 + 18446744073709551616 * q4 - c3) by lia.
      assert (R1' : a1 = 18446744073709551616 * d1 - k1 * m0) by lia.
      assert (R2' : a2 = b2 + 18446744073709551616 * d2 - k1 * m1 - d1) by lia.
      assert (R3' : a3 = b3 + 18446744073709551616 * d3 - k1 * m2 - d2) by lia.
      assert (R4' : a4 = b4 + 18446744073709551616 * d4 - k1 * m3 - d3) by lia.
      assert (R5 : r5 = b5 + 18446744073709551616 * q5 - q4 - d4) by lia.
      assert (R2'' : b2 = 18446744073709551616 * e1 - k2 * m0) by lia.
      assert (R3'' : b3 = g3 + 18446744073709551616 * e2 - k2 * m1 - e1) by lia.
      assert (R4'' : b4 = g4 + 18446744073709551616 * e3 - k2 * m2 - e2) by lia.
      assert (R5'' : b5 = g5 + 18446744073709551616 * e4 - k2 * m3 - e3) by lia.
      assert (R6 : r6 = g6 + 18446744073709551616 * q6 - q5 - e4) by lia.
      assert (R3''' : g3 = 18446744073709551616 * f1 - k3 * m0) by lia.
      assert (R4''' : g4 = h4 + 18446744073709551616 * f2 - k3 * m1 - f1) by lia.
      assert (R5''' : g5 = h5 + 18446744073709551616 * f3 - k3 * m2 - f2) by lia.
      assert (R6''' : g6 = h6 + 18446744073709551616 * f4 - k3 * m3 - f3) by lia.
      assert (R7 : r7 = h7 + 18446744073709551616 * q7 - q6 - f4) by lia.
      clear V0 V1 V2 V3 V4 W0 W1 W2 W3 W4 Y0 Y1 Y2 Y3 Y4 T0 T1 T2 T3 T4.
      subst r0 r1 r2 r3 r4 r5 r6 r7 a1 a2 a3 a4 b2 b3 b4 b5 g3 g4 g5 g6. ring. }
    pose proof (val4_bound _ _ _ _ J4 J5 J6 J7) as Hv.
    pose proof m_pos as Mp.
    assert (Hlt2 : val4 h4 h5 h6 h7 + w256 * q7 < 2 * m).
    { assert (K * m < w256 * m) by (apply Z.mul_lt_mono_pos_r; lia).
      apply (Z.mul_lt_mono_pos_l w256); [reflexivity|]. rewrite <- Tot.
      replace (w256 * (2 * m)) with (m * w256 + w256 * m) by ring. lia. }
    assert (q7 = 0).
    { pose proof (ok_mhi OK) as Hmh. assert (Hw2 : 2 ^ 255 * 2 = w256) by reflexivity.
      clear - Hv Hlt2 Hmh Hw2 Q7. rewrite w256_val in *. lia. }
    subst q7. rewrite Z.mul_0_r, Z.add_0_r in *.
    assert (Ev : val (L4 h4 h5 h6 h7) = val4 h4 h5 h6 h7) by (rewrite val_val4; reflexivity).
    destruct (fe_sub_modulus (L4 h4 h5 h6 h7)) as [Cc Cv].
    - apply wf_mk; assumption.
    - rewrite Ev. exact Hlt2.
    - split; [exact Cc|]. rewrite Cv, Ev, Zmult_mod_idemp_l, Z.mul_comm, <- Tot.
      apply Z_mod_plus_full.
  Qed.

  Lemma fe_mul_raw a b : wf_limbs a -> wf_limbs b -> val a * val b < m * w256 ->
    canonical P (fe_mul P a b) /\ (val (fe_mul P a b) * w256) mod m = (val a * val b) mod m.
  Proof.
    intros (A0 & A1 & A2 & A3) (B0 & B1 & B2 & B3) Hlt. rewrite !is_u64_eq in *.
    assert (Z0 : u64 0) by (unfold u64; rewrite w64_val; lia).
    unfold fe_mul.
    destruct (mac_spec 0 (l0 a) (l0 b) 0 Z0 A0 B0 Z0) as (r0 & c & E & V1 & R0 & C); rewrite E; clear E.
    destruct (mac_spec 0 (l0 a) (l1 b) c Z0 A0 B1 C) as (r1 & c1 & E & V2 & R1 & C1); rewrite E; clear E.
    destruct (mac_spec 0 (l0 a) (l2 b) c1 Z0 A0 B2 C1) as (r2 & c2 & E & V3 & R2 & C2); rewrite E; clear E.
    destruct (mac_spec 0 (l0 a) (l3 b) c2 Z0 A0 B3 C2) as (r3 & r4 & E & V4 & R3 & R4); rewrite E; clear E.
    destruct (mac_spec r1 (l1 a) (l0 b) 0 R1 A1 B0 Z0) as (s1 & d1 & E & V5 & S1 & D1); rewrite E; clear E.
    destruct (mac_spec r2 (l1 a) (l1 b) d1 R2 A1 B1 D1) as (s2 & d2 & E & V6 & S2 & D2); rewrite E; clear E.
    destruct (mac_spec r3 (l1 a) (l2 b) d2 R3 A1 B2 D2) as (s3 & d3 & E & V7 & S3 & D3); rewrite E; clear E.
    destruct (mac_spec r4 (l1 a) (l3 b) d3 R4 A1 B3 D3) as (s4 & r5 & E & V8 & S4 & R5); rewrite E; clear E.
    destruct (mac_spec s2 (l2 a) (l0 b) 0 S2 A2 B0 Z0) as (t2 & e2 & E & V9 & T2 & F2); rewrite E; clear E.
    destruct (mac_spec s3 (l2 a) (l1 b) e2 S3 A2 B1 F2) as (t3 & e3 & E & V10 & T3 & F3); rewrite E; clear E.
    destruct (mac_spec s4 (l2 a) (l2 b) e3 S4 A2 B2 F3) as (t4 & e4 & E & V11 & T4 & F4); rewrite E; clear E.
    destruct (mac_spec r5 (l2 a) (l3 b) e4 R5 A2 B3 F4) as (t5 & r6 & E & V12 & T5 & R6); rewrite E; clear E.
    destruct (mac_spec t3 (l3 a) (l0 b) 0 T3 A3 B0 Z0) as (u3 & f3 & E & V13 & U3 & G3); rewrite E; clear E.
    destruct (mac_spec t4 (l3 a) (l1 b) f3 T4 A3 B1 G3) as (u4 & f4 & E & V14 & U4 & G4); rewrite E; clear E.
    destruct (mac_spec t5 (l3 a) (l2 b) f4 T5 A3 B2 G4) as (u5 & f5 & E & V15 & U5 & G5); rewrite E; clear E.
    destruct (mac_spec r6 (l3 a) (l3 b) f5 R6 A3 B3 G5) as (u6 & r7 & E & V16 & U6 & R7); rewrite E; clear E.
    assert (Tot : val8 r0 s1 t2 u3 u4 u5 u6 r7 = val a * val b).
    { rewrite !val_val4. unfold val8, val4. change w256 with (w64*w64*w64*w64).
      clear - V1 V2 V3 V4 V5 V6 V7 V8 V9 V10 V11 V12 V13 V14 V15 V16.
      assert (Q1 : r0 = l0 a * l0 b - w64 * c) by lia.
      assert (Q2 : c = r1 + w64 * c1 - l0 a * l1 b) by lia.
      assert (Q3 : c1 = r2 + w64 * c2 - l0 a * l2 b) by lia.
      assert (Q4 : c2 = r3 + w64 * r4 - l0 a * l3 b) by lia.
      assert (Q5 : r1 = s1 + w64 * d1 - l1 a * l0 b) by lia.
      assert (Q6 : r2 = s2 + w64 * d2 - l1 a * l1 b - d1) by lia.
      assert (Q7 : r3 = s3 + w64 * d3 - l1 a * l2 b - d2) by lia.
      assert (Q8 : r4 = s4 + w64 * r5 - l1 a * l3 b - d3) by lia.
      assert (Q9 : s2 = t2 + w64 * e2 - l2 a * l0 b) by lia.
      assert (Q10 : s3 = t3 + w64 * e3 - l2 a * l1 b - e2) by lia.
      assert (Q11 : s4 = t4 + w64 * e4 - l2 a * l2 b - e3) by lia.
      assert (Q12 : r5 = t5 + w64 * r6 - l2 a * l3 b - e4) by lia.
      assert (Q13 : t3 = u3 + w64 * f3 - l3 a * l0 b) by lia.
      assert (Q14 : t4 = u4 + w64 * f4 - l3 a * l1 b - f3) by lia.
      assert (Q15 : t5 = u5 + w64 * f5 - l3 a * l2 b - f4) by lia.
      assert (Q16 : r6 = u6 + w64 * r7 - l3 a * l3 b - f5) by lia.
      clear V1 V2 V3 V4 V5 V6 V7 V8 V9 V10 V11 V12 V13 V14 V15 V16.
      subst r0 c c1 c2 r1 r2 r3 r4 s2 s3 s4 r5 t3 t4 t5 r6. ring. }
    pose proof (montgomery_reduce_spec r0 s1 t2 u3 u4 u5 u6 r7 R0 S1 T2 U3 U4 U5 U6 R7) as H.
    cbv zeta in H. rewrite Tot in H. apply H. exact Hlt.
  Qed.

  Lemma shl1or_spec x y : u64 x -> u64 y ->
    u64 (shl1or x y) /\ shl1or x y + w64 * Z.shiftr x 63 = 2 * x + Z.shiftr y 63.
  Proof.
    intros Hx Hy. unfold shl1or.
    assert (Hs : forall z, u64 z -> 0 <= Z.shiftr z 63 <= 1).
    { intros z Hz. rewrite Z.shiftr_div_pow2 by lia. unfold u64 in Hz.
      change w64 with (2 * 2 ^ 63) in Hz. split. apply Z.div_pos; lia.
      assert (z / 2 ^ 63 < 2) by (apply Z.div_lt_upper_bound; lia). lia. }
    assert (Hxs : (Z.shiftl x 1) mod w64 = 2 * x - w64 * Z.shiftr x 63).
    { rewrite Z.shiftl_mul_pow2, Z.shiftr_div_pow2 by lia.
      change (2 ^ 1) with 2. rewrite Z.mod_eq by discriminate.
      change w64 with (2 ^ 63 * 2). rewrite Z.div_mul_cancel_r by lia. lia. }
    pose proof (Hs _ Hx) as Bx. pose proof (Hs _ Hy) as By.
    assert (Hb : 0 <= (Z.shiftl x 1) mod w64 < w64) by (apply Z.mod_pos_bound; reflexivity).
    assert (El : Z.lor ((Z.shiftl x 1) mod w64) (Z.shiftr y 63)
                 = (Z.shiftl x 1) mod w64 + Z.shiftr y 63).
    { cut (Z.land ((Z.shiftl x 1) mod w64) (Z.shiftr y 63) = 0).
      { intros H0. rewrite <- Z.lxor_lor, Z.add_nocarry_lxor by exact H0. reflexivity. }
      apply Z.bits_inj'. intros i Hi. rewrite Z.land_spec, Z.bits_0.
      destruct (Z.eq_dec i 0) as [->|].
      - rewrite Z.bit0_odd, Hxs. rewrite Z.odd_sub, Z.odd_mul. change (Z.odd 2) with false.
        rewrite Z.odd_mul. change (Z.odd w64) with false. reflexivity.
      - assert (Z.shiftr y 63 = 0 \/ Z.shiftr y 63 = 1) as [->| ->] by lia.
        now rewrite Z.bits_0, andb_false_r.
        rewrite (Z.bits_above_log2 1) by (try change (Z.log2 1) with 0; lia). apply andb_false_r. }
    rewrite El. rewrite Hxs in *. unfold u64.
    split; [|lia]. 
    assert (2 * x - w64 * Z.shiftr x 63 <= w64 - 2).
    { assert ((2 * x - w64 * Z.shiftr x 63) mod 2 = 0).
      { change w64 with (2 * 2 ^ 63).
        replace (2 * x - 2 * 2 ^ 63 * Z.shiftr x 63) with ((x - 2 ^ 63 * Z.shiftr x 63) * 2) by ring.
        apply Z_mod_mult. }
      pose proof (Z.div_mod (2 * x - w64 * Z.shiftr x 63) 2 ltac:(lia)).
      rewrite w64_val in *. lia. }
    lia.
  Qed.

  Lemma fe_square_raw a : wf_limbs a -> val a * val a < m * w256 ->
    canonical P (fe_square P a) /\ (val (fe_square P a) * w256) mod m = (val a * val a) mod m.
  Proof.
    intros (A0 & A1 & A2 & A3) Hlt. rewrite !is_u64_eq in *.
    assert (Z0 : u64 0) by (unfold u64; rewrite w64_val; lia).
    unfold fe_square.
    destruct (mac_spec 0 (l0 a) (l1 a) 0 Z0 A0 A1 Z0) as (r1 & c1 & E & V1 & R1 & C1); rewrite E; clear E.
    destruct (mac_spec 0 (l0 a) (l2 a) c1 Z0 A0 A2 C1) as (r2 & c2 & E & V2 & R2 & C2); rewrite E; clear E.
    destruct (mac_spec 0 (l0 a) (l3 a) c2 Z0 A0 A3 C2) as (r3 & r4 & E & V3 & R3 & R4); rewrite E; clear E.
    destruct (mac_spec r3 (l1 a) (l2 a) 0 R3 A1 A2 Z0) as (s3 & d3 & E & V4 & S3 & D3); rewrite E; clear E.
    destruct (mac_spec r4 (l1 a) (l3 a) d3 R4 A1 A3 D3) as (s4 & r5 & E & V5 & S4 & R5); rewrite E; clear E.
    destruct (mac_spec r5 (l2 a) (l3 a) 0 R5 A2 A3 Z0) as (s5 & r6 & E & V6 & S5 & R6); rewrite E; clear E.
    cbv zeta.
    destruct (shl1or_spec r6 s5 R6 S5) as [T6 X6].
    destruct (shl1or_spec s5 s4 S5 S4) as [T5 X5].
    destruct (shl1or_spec s4 s3 S4 S3) as [T4 X4].
    destruct (shl1or_spec s3 r2 S3 R2) as [T3 X3].
    destruct (shl1or_spec r2 r1 R2 R1) as [T2 X2].
    destruct (shl1or_spec r1 0 R1 Z0) as [T1 X1].
    assert (E1 : shl1or r1 0 = (Z.shiftl r1 1) mod w64).
    { unfold shl1or. rewrite Z.shiftr_0_l, Z.lor_0_r. reflexivity. }
    rewrite E1 in T1, X1. clear E1. rewrite Z.shiftr_0_l in X1.
    set (t6 := shl1or r6 s5) in *. set (t5 := shl1or s5 s4) in *.
    set (t4 := shl1or s4 s3) in *. set (t3 := shl1or s3 r2) in *.
    set (t2 := shl1or r2 r1) in *. set (t1 := (Z.shiftl r1 1) mod w64) in *.
    assert (T7 : u64 (Z.shiftr r6 63)).
    { rewrite Z.shiftr_div_pow2 by lia. unfold u64 in *. change w64 with (2 * 2^63) in *.
      split. apply Z.div_pos; lia. apply Z.div_lt_upper_bound; lia. }
    set (t7 := Z.shiftr r6 63) in *.
    clearbody t1 t2 t3 t4 t5 t6 t7.
    set (z5 := Z.shiftr s5 63) in *. set (z4 := Z.shiftr s4 63) in *.
    set (z3 := Z.shiftr s3 63) in *. set (z2 := Z.shiftr r2 63) in *.
    set (z1 := Z.shiftr r1 63) in *. clearbody z1 z2 z3 z4 z5.
    assert (Hu : forall h, 0 <= h <= 2 -> u64 h) by (unfold u64; rewrite w64_val; intros; lia).
    destruct (mac_spec 0 (l0 a) (l0 a) 0 Z0 A0 A0 Z0) as (y0 & k0 & E & W0 & Y0 & K0); rewrite E; clear E.
    destruct (adc_spec 0 t1 k0 Z0 T1 K0) as (y1 & k1 & E & W1 & Y1 & K1 & _); rewrite E; clear E.
    apply Hu in K1.
    destruct (mac_spec t2 (l1 a) (l1 a) k1 T2 A1 A1 K1) as (y2 & k2 & E & W2 & Y2 & K2); rewrite E; clear E.
    destruct (adc_spec 0 t3 k2 Z0 T3 K2) as (y3 & k3 & E & W3 & Y3 & K3 & _); rewrite E; clear E.
    apply Hu in K3.
    destruct (mac_spec t4 (l2 a) (l2 a) k3 T4 A2 A2 K3) as (y4 & k4 & E & W4 & Y4 & K4); rewrite E; clear E.
    destruct (adc_spec 0 t5 k4 Z0 T5 K4) as (y5 & k5 & E & W5 & Y5 & K5 & _); rewrite E; clear E.
    apply Hu in K5.
    destruct (mac_spec t6 (l3 a) (l3 a) k5 T6 A3 A3 K5) as (y6 & k6 & E & W6 & Y6 & K6); rewrite E; clear E.
    destruct (adc_spec 0 t7 k6 Z0 T7 K6) as (y7 & k7 & E & W7 & Y7 & K7 & _); rewrite E; clear E.
    assert (Tot : val8 y0 y1 y2 y3 y4 y5 y6 y7 + w256 * w256 * k7 = val a * val a).
    { rewrite !val_val4. unfold val8, val4. change w256 with (w64*w64*w64*w64).
      clear - V1 V2 V3 V4 V5 V6 X1 X2 X3 X4 X5 X6 W0 W1 W2 W3 W4 W5 W6 W7.
      assert (Q0 : y0 = l0 a * l0 a - w64 * k0) by lia.
      assert (Q1 : y1 = t1 + k0 - w64 * k1) by lia.
      assert (Q2 : y2 = t2 + l1 a * l1 a + k1 - w64 * k2) by lia.
      assert (Q3 : y3 = t3 + k2 - w64 * k3) by lia.
      assert (Q4 : y4 = t4 + l2 a * l2 a + k3 - w64 * k4) by lia.
      assert (Q5 : y5 = t5 + k4 - w64 * k5) by lia.
      assert (Q6 : y6 = t6 + l3 a * l3 a + k5 - w64 * k6) by lia.
      assert (Q7 : y7 = t7 + k6 - w64 * k7) by lia.
      assert (P1 : t1 = 2 * r1 - w64 * z1) by lia.
      assert (P2 : t2 = 2 * r2 + z1 - w64 * z2) by lia.
      assert (P3 : t3 = 2 * s3 + z2 - w64 * z3) by lia.
      assert (P4 : t4 = 2 * s4 + z3 - w64 * z4) by lia.
      assert (P5 : t5 = 2 * s5 + z4 - w64 * z5) by lia.
      assert (P6 : t6 = 2 * r6 + z5 - w64 * t7) by lia.
      assert (O1 : r1 = l0 a * l1 a - w64 * c1) by lia.
      assert (O2 : r2 = l0 a * l2 a + c1 - w64 * c2) by lia.
      assert (O3 : s3 = r3 + l1 a * l2 a - w64 * d3) by lia.
      assert (O3' : r3 = l0 a * l3 a + c2 - w64 * r4) by lia.
      assert (O4 : s4 = r4 + l1 a * l3 a + d3 - w64 * r5) by lia.
      assert (O5 : s5 = r5 + l2 a * l3 a - w64 * r6) by lia.
      clear V1 V2 V3 V4 V5 V6 X1 X2 X3 X4 X5 X6 W0 W1 W2 W3 W4 W5 W6 W7.
      subst y0 y1 y2 y3 y4 y5 y6 y7. subst t1 t2 t3 t4 t5 t6. subst r1 r2 s3. subst r3 s4 s5. ring. }
    assert (k7 = 0).
    { pose proof (ok_mhi OK) as Hmh. 
      assert (Hv : 0 <= val8 y0 y1 y2 y3 y4 y5 y6 y7).
      { unfold val8. pose proof (val4_bound _ _ _ _ Y0 Y1 Y2 Y3). pose proof (val4_bound _ _ _ _ Y4 Y5 Y6 Y7).
        rewrite w256_val in *. lia. }
      assert (m * w256 < w256 * w256).
      { apply Z.mul_lt_mono_pos_r. reflexivity. change w256 with (2 * 2^255). pose proof m_pos. lia. }
      rewrite w256_val in *. lia. }
    subst k7. rewrite Z.mul_0_r, Z.add_0_r in Tot.
    pose proof (montgomery_reduce_spec y0 y1 y2 y3 y4 y5 y6 y7 Y0 Y1 Y2 Y3 Y4 Y5 Y6 Y7) as H.
    cbv zeta in H. rewrite Tot in H. apply H. exact Hlt.
  Qed.
End Generic.
