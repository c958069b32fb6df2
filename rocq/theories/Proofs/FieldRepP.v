(** From limb-level facts to facts about represented integers. *)
From Coq Require Import ZArith List Lia Znumtheory Bool Zpow_facts.
From Verif Require Import Lib.ZMod Model.FieldLimbs Spec.FieldSpec Proofs.FieldLimbsP.
Import ListNotations.
Open Scope Z_scope.

#[local] Opaque fe_mul fe_square fe_add fe_sub fe_neg montgomery_reduce.

Section Rep.
  Variable P : fparams.
  Hypothesis OK : params_ok P.
  Notation m := (modulus P).
  Notation rep := (represents P).

  Lemma W_rel_prime : rel_prime m w256.
  Proof.
    unfold w256. apply rel_prime_Zpower_r; [lia|].
    apply rel_prime_sym. apply prime_rel_prime; [apply prime_2|].
    intros D. apply Z.mod_divide in D; [|lia]. pose proof (ok_modd P OK). lia.
  Qed.

  Lemma mpos : 0 < m. Proof. exact (m_pos P OK). Qed.
  Lemma mbig : 1 < m.
  Proof. pose proof (ok_mlo P OK). assert (1 < 2 ^ 254) by reflexivity. lia. Qed.

  Lemma W_cancel a b : (a * w256) mod m = (b * w256) mod m -> a mod m = b mod m.
  Proof. apply mul_cancel_mod; [exact mpos|exact W_rel_prime]. Qed.

  Lemma val_inj a b : wf_limbs a -> wf_limbs b -> val a = val b -> a = b.
  Proof.
    intros (A0 & A1 & A2 & A3) (B0 & B1 & B2 & B3). rewrite !val_val4. unfold val4.
    destruct a as [a0 a1 a2 a3], b as [b0 b1 b2 b3]; cbn [l0 l1 l2 l3] in *.
    rewrite !is_u64_eq in *. unfold u64 in *. rewrite w64_val in *. intros H.
    f_equal; lia.
  Qed.

  Lemma rep_range a x : rep a x -> 0 <= x < m. Proof. intros H. apply H. Qed.
  Lemma rep_canon a x : rep a x -> canonical P a. Proof. intros H. apply H. Qed.

  (** A represented integer is unique ... *)
  Lemma rep_fun a x y : rep a x -> rep a y -> x = y.
  Proof.
    intros (_ & Rx & Ex) (_ & Ry & Ey). rewrite <- Ey in Ex. apply W_cancel in Ex.
    rewrite !Z.mod_small in Ex by lia. exact Ex.
  Qed.
  (** ... has a unique representation ... *)
  Lemma rep_inj a b x : rep a x -> rep b x -> a = b.
  Proof.
    intros ([Wa _] & _ & Ea) ([Wb _] & _ & Eb). apply val_inj; [assumption..|]. lia.
  Qed.
  (** ... and every canonical quadruple represents one. *)
  Lemma rep_total a : canonical P a -> exists x, rep a x.
  Proof.
    intros C. destruct (rel_prime_bezout _ _ W_rel_prime) as [u v E].
    exists ((val a * v) mod m). split; [exact C|]. split; [apply Z.mod_pos_bound, mpos|].
    change (2^256) with w256. rewrite Zmult_mod_idemp_l.
    replace (val a * v * w256) with (val a * (u * m + v * w256) + (- (val a * u)) * m) by ring.
    rewrite E, Z.mul_1_r.
    rewrite Z_mod_plus_full. apply Z.mod_small. destruct C as [Wf Lt].
    pose proof (wf_bound _ Wf). lia.
  Qed.

  Lemma rep_intro a z : canonical P a -> (z * w256) mod m = val a -> rep a (z mod m).
  Proof.
    intros C E. split; [exact C|]. split; [apply Z.mod_pos_bound, mpos|].
    change (2^256) with w256. rewrite Zmult_mod_idemp_l. exact E.
  Qed.

  Lemma canon_nonneg a : canonical P a -> 0 <= val a < m.
  Proof. intros [W L]. pose proof (wf_bound _ W). lia. Qed.

  Lemma add_rep a b x y : rep a x -> rep b y -> rep (fe_add P a b) ((x + y) mod m).
  Proof.
    intros (Ca & Rx & Ex) (Cb & Ry & Ey).
    destruct (fe_add_spec P OK a b Ca Cb) as [C V].
    apply rep_intro; [exact C|]. rewrite V, <- Ex, <- Ey. change (2^256) with w256.
    rewrite <- Zplus_mod. f_equal. ring.
  Qed.

  Lemma double_rep a x : rep a x -> rep (fe_double P a) ((2 * x) mod m).
  Proof. intros H. replace (2 * x) with (x + x) by ring. apply add_rep; exact H. Qed.

  Lemma sub_rep a b x y : rep a x -> rep b y -> rep (fe_sub P a b) ((x - y) mod m).
  Proof.
    intros (Ca & Rx & Ex) (Cb & Ry & Ey).
    destruct (fe_sub_canon P OK a b Ca Cb) as [C V].
    apply rep_intro; [exact C|]. rewrite V, <- Ex, <- Ey. change (2^256) with w256.
    rewrite <- Zminus_mod. f_equal. ring.
  Qed.

  Lemma neg_rep a x : rep a x -> rep (fe_neg P a) ((- x) mod m).
  Proof.
    intros (Ca & Rx & Ex).
    destruct (fe_neg_spec P OK a Ca) as [C V].
    apply rep_intro; [exact C|]. rewrite V, <- Ex. change (2^256) with w256.
    rewrite <- (Z.sub_0_l ((x * w256) mod m)). rewrite Zminus_mod_idemp_r. f_equal. ring.
  Qed.

  (** Multiplication when one side is an arbitrary 256-bit integer. *)
  Lemma mul_raw_rep a b y : wf_limbs a -> rep b y ->
    canonical P (fe_mul P a b) /\ val (fe_mul P a b) = (val a * y) mod m.
  Proof.
    intros Wa (Cb & Ry & Ey). destruct (canon_nonneg b Cb) as [Hb0 Hb].
    pose proof (wf_bound _ Wa) as Ha. pose proof mpos.
    destruct (fe_mul_raw P OK a b Wa (proj1 Cb)) as [C V].
    { assert (val a * val b <= val a * m) by (apply Z.mul_le_mono_nonneg_l; lia).
      assert (val a * m < w256 * m) by (apply Z.mul_lt_mono_pos_r; lia). lia. }
    split; [exact C|].
    rewrite <- Ey in V. change (2^256) with w256 in V. rewrite Zmult_mod_idemp_r in V.
    replace (val a * (y * w256)) with (val a * y * w256) in V by ring.
    apply W_cancel in V. destruct (canon_nonneg _ C). rewrite Z.mod_small in V by lia. exact V.
  Qed.

  Lemma mul_rep a b x y : rep a x -> rep b y -> rep (fe_mul P a b) ((x * y) mod m).
  Proof.
    intros Ha Hb. destruct (mul_raw_rep a b y (proj1 (rep_canon _ _ Ha)) Hb) as [C V].
    destruct Ha as (Ca & Rx & Ex).
    apply rep_intro; [exact C|]. rewrite V, <- Ex. change (2^256) with w256.
    rewrite Zmult_mod_idemp_l. f_equal. ring.
  Qed.

  Lemma square_mul a : canonical P a -> fe_square P a = fe_mul P a a.
  Proof.
    intros C. destruct (canon_nonneg a C) as [H0 H1]. pose proof mpos.
    assert (Hlt : val a * val a < m * w256).
    { pose proof (wf_bound _ (proj1 C)).
      assert (val a * val a <= val a * w256) by (apply Z.mul_le_mono_nonneg_l; lia).
      assert (val a * w256 < m * w256) by (apply Z.mul_lt_mono_pos_r; [reflexivity|lia]). lia. }
    destruct (fe_square_raw P OK a (proj1 C) Hlt) as [C1 V1].
    destruct (fe_mul_raw P OK a a (proj1 C) (proj1 C) Hlt) as [C2 V2].
    rewrite <- V2 in V1. apply W_cancel in V1.
    destruct (canon_nonneg _ C1), (canon_nonneg _ C2).
    rewrite !Z.mod_small in V1 by lia. apply val_inj; [apply C1|apply C2|exact V1].
  Qed.

  Lemma square_rep a x : rep a x -> rep (fe_square P a) ((x * x) mod m).
  Proof. intros H. rewrite square_mul by apply H. apply mul_rep; exact H. Qed.

  Lemma zero_rep : rep fe_zero 0.
  Proof.
    pose proof mpos. split; [|split; [lia|rewrite Z.mul_0_l, Z.mod_0_l by lia; reflexivity]].
    split; [apply wf_mk; unfold u64; rewrite w64_val; lia|]. cbn. lia.
  Qed.
  Lemma one_rep : rep (fe_one P) 1.
  Proof.
    pose proof mbig. split; [apply OK|]. split; [lia|]. rewrite Z.mul_1_l.
    symmetry. apply (ok_R P OK).
  Qed.

  Lemma R2_rep : rep (cR2 P) (w256 mod m).
  Proof. apply rep_intro; [apply OK|]. rewrite (ok_R2 P OK). reflexivity. Qed.
  Lemma R3_rep : rep (cR3 P) ((2 ^ 512) mod m).
  Proof. apply rep_intro; [apply OK|]. rewrite (ok_R3 P OK). reflexivity. Qed.

  Lemma from_raw_rep v : wf_limbs v -> rep (fe_from_raw P v) (val v mod m).
  Proof.
    intros W. destruct (mul_raw_rep v _ _ W R2_rep) as [C V].
    unfold fe_from_raw. apply rep_intro; [exact C|]. rewrite V.
    rewrite Zmult_mod_idemp_r. reflexivity.
  Qed.

  Lemma from_bool_rep b : rep (fe_from_bool P b) (if b then 1 else 0).
  Proof. destruct b; [apply one_rep|apply zero_rep]. Qed.

  Lemma val_l0 v : val (L4 v 0 0 0) = v.
  Proof. rewrite val_val4. unfold val4; cbn [l0 l1 l2 l3]. ring. Qed.

  Lemma u64_lt_m v : u64 v -> 0 <= v < m.
  Proof. unfold u64. pose proof (ok_mlo P OK). assert (w64 < 2 ^ 254) by reflexivity. lia. Qed.

  Lemma from_u64_rep v : u64 v -> rep (fe_from_u64 P v) v.
  Proof.
    intros H. unfold fe_from_u64.
    assert (W : wf_limbs (L4 v 0 0 0)) by (apply wf_mk; [exact H|unfold u64; rewrite w64_val; lia..]).
    pose proof (from_raw_rep _ W) as R. rewrite val_l0 in R.
    rewrite Z.mod_small in R by (apply u64_lt_m, H). exact R.
  Qed.
  Lemma from_rep v : u64 v -> rep (fe_from P v) v.
  Proof. intros H. unfold fe_from. pose proof (from_u64_rep v H) as R. unfold fe_from_u64, fe_from_raw in R. exact R. Qed.

  Lemma from_u128_rep v : 0 <= v < w128 -> rep (fe_from_u128 P v) v.
  Proof.
    intros H. unfold fe_from_u128.
    destruct (split128 v H) as (E & Ul & Uh).
    set (lo := v mod w64) in *. set (hi := Z.shiftr v 64 mod w64) in *.
    assert (W : wf_limbs (L4 lo hi 0 0)) by (apply wf_mk; [assumption..|unfold u64; rewrite w64_val; lia|unfold u64; rewrite w64_val; lia]).
    pose proof (from_raw_rep _ W) as R.
    assert (Ev : val (L4 lo hi 0 0) = v) by (rewrite val_val4; unfold val4; cbn [l0 l1 l2 l3]; lia).
    rewrite Ev, Z.mod_small in R; [exact R|].
    pose proof (ok_mlo P OK). assert (w128 < 2 ^ 254) by reflexivity. lia.
  Qed.

  Lemma from_u512_rep x0 x1 x2 x3 x4 x5 x6 x7 :
    u64 x0 -> u64 x1 -> u64 x2 -> u64 x3 -> u64 x4 -> u64 x5 -> u64 x6 -> u64 x7 ->
    rep (fe_from_u512 P x0 x1 x2 x3 x4 x5 x6 x7)
        ((val4 x0 x1 x2 x3 + w256 * val4 x4 x5 x6 x7) mod m).
  Proof.
    intros H0 H1 H2 H3 H4 H5 H6 H7. unfold fe_from_u512.
    assert (W0 : wf_limbs (L4 x0 x1 x2 x3)) by (apply wf_mk; assumption).
    assert (W1 : wf_limbs (L4 x4 x5 x6 x7)) by (apply wf_mk; assumption).
    pose proof (from_raw_rep _ W0) as R0. unfold fe_from_raw in R0.
    destruct (mul_raw_rep _ _ _ W1 R3_rep) as [C V].
    assert (R1 : rep (fe_mul P (L4 x4 x5 x6 x7) (cR3 P)) ((val (L4 x4 x5 x6 x7) * w256) mod m)).
    { apply rep_intro; [exact C|]. rewrite V, Zmult_mod_idemp_r. f_equal.
      change (2^512) with (w256 * w256). ring. }
    pose proof (add_rep _ _ _ _ R0 R1) as R. rewrite <- Zplus_mod in R.
    rewrite !val_val4 in R. cbn [l0 l1 l2 l3] in R. rewrite (Z.mul_comm w256). exact R.
  Qed.

  (** ** Equality *)
  Lemma ct_eq_spec a b : fe_ct_eq a b = true <-> a = b.
  Proof.
    unfold fe_ct_eq. rewrite !andb_true_iff, !Z.eqb_eq.
    destruct a as [a0 a1 a2 a3], b as [b0 b1 b2 b3]; cbn [l0 l1 l2 l3]. split.
    - intros [[[-> ->] ->] ->]. reflexivity.
    - intros [= -> -> -> ->]. auto.
  Qed.
  Lemma ct_eq_rep a b x y : rep a x -> rep b y -> fe_ct_eq a b = (x =? y).
  Proof.
    intros Ha Hb. apply eq_true_iff_eq. rewrite ct_eq_spec, Z.eqb_eq. split; intros E.
    - subst b. eapply rep_fun; eassumption.
    - subst y. eapply rep_inj; eassumption.
  Qed.

  (** ** Bytes *)
  Lemma read_le_le_value bs : read_le bs = le_value bs.
  Proof. induction bs as [|b bs IH]; cbn; [reflexivity|rewrite IH; reflexivity]. Qed.

  Lemma le_value_app a b : le_value (a ++ b) = le_value a + 256 ^ Z.of_nat (length a) * le_value b.
  Proof.
    induction a as [|x a IH]; cbn [app le_value length].
    - lia.
    - rewrite IH, Nat2Z.inj_succ, Z.pow_succ_r by lia. ring.
  Qed.
  Lemma le_value_bound bs : Forall is_byte bs -> 0 <= le_value bs < 256 ^ Z.of_nat (length bs).
  Proof.
    induction 1 as [|b bs Hb _ IH]; cbn [le_value length]; [cbn; lia|].
    rewrite Nat2Z.inj_succ, Z.pow_succ_r by lia. unfold is_byte in Hb. lia.
  Qed.

  Lemma slice_bytes lo len bs : Forall is_byte bs -> Forall is_byte (slice lo len bs).
  Proof.
    intros H. unfold slice. apply Forall_forall. intros x Hx. rewrite Forall_forall in H.
    apply H.
    assert (In x (skipn lo bs)) by (rewrite <- (firstn_skipn len (skipn lo bs)); apply in_or_app; left; exact Hx).
    rewrite <- (firstn_skipn lo bs). apply in_or_app; right; assumption.
  Qed.

  Lemma skipn_skipn {A} a b (l : list A) : skipn a (skipn b l) = skipn (b + a) l.
  Proof.
    revert l; induction b as [|b IH]; intros l; cbn [skipn Nat.add]; [reflexivity|].
    destruct l; [apply skipn_nil|apply IH].
  Qed.
  Lemma chunk_off {A} (bs : list A) off : skipn off bs = slice off 8 bs ++ skipn (off + 8) bs.
  Proof. unfold slice. rewrite <- skipn_skipn. symmetry. apply firstn_skipn. Qed.

  Lemma slice_len {A} lo len (bs : list A) : (lo + len <= length bs)%nat -> length (slice lo len bs) = len.
  Proof. intros H. unfold slice. rewrite firstn_length, skipn_length. lia. Qed.

  Lemma slice_u64 lo bs : Forall is_byte bs -> (lo + 8 <= length bs)%nat -> u64 (read_le (slice lo 8 bs)).
  Proof.
    intros H L. rewrite read_le_le_value.
    pose proof (le_value_bound _ (slice_bytes lo 8 bs H)) as B.
    rewrite slice_len in B by exact L. exact B.
  Qed.

  Lemma read4 off bs : (off + 32 <= length bs)%nat ->
    le_value (skipn off bs) =
    val4 (read_le (slice off 8 bs)) (read_le (slice (off+8) 8 bs))
         (read_le (slice (off+16) 8 bs)) (read_le (slice (off+24) 8 bs))
    + w256 * le_value (skipn (off + 32) bs).
  Proof.
    intros L. rewrite (read_le_le_value (slice off 8 bs)), (read_le_le_value (slice (off+8) 8 bs)),
      (read_le_le_value (slice (off+16) 8 bs)), (read_le_le_value (slice (off+24) 8 bs)).
    pose proof (chunk_off bs off) as C0. pose proof (chunk_off bs (off+8)) as C1.
    pose proof (chunk_off bs (off+16)) as C2. pose proof (chunk_off bs (off+24)) as C3.
    replace (off + 8 + 8)%nat with (off+16)%nat in C1 by lia.
    replace (off + 16 + 8)%nat with (off+24)%nat in C2 by lia.
    replace (off + 24 + 8)%nat with (off+32)%nat in C3 by lia.
    rewrite C0, C1, C2, C3, !le_value_app, !slice_len by lia.
    change (256 ^ Z.of_nat 8) with w64. unfold val4. change w256 with (w64*w64*w64*w64). ring.
  Qed.

  Lemma from_bytes_wide_rep bs : length bs = 64%nat -> Forall is_byte bs ->
    rep (fe_from_bytes_wide P bs) (le_value bs mod m).
  Proof.
    intros L H. unfold fe_from_bytes_wide.
    pose proof (read4 0 bs ltac:(lia)) as E0. pose proof (read4 32 bs ltac:(lia)) as E1.
    change (skipn 0 bs) with bs in E0.
    assert (E2 : skipn (32 + 32) bs = []) by (apply skipn_all2; lia).
    rewrite E2 in E1. cbn [Nat.add le_value] in E0, E1. rewrite Z.mul_0_r, Z.add_0_r in E1.
    rewrite E0. rewrite E1. 
    apply from_u512_rep; apply slice_u64; (exact H || lia).
  Qed.

  (** The borrow chain of from_bytes decides [value < modulus]. *)
  Lemma from_bytes_spec bs : length bs = 32%nat -> Forall is_byte bs ->
    (le_value bs < m -> exists a, fe_from_bytes P bs = Some a /\ rep a (le_value bs)) /\
    (m <= le_value bs -> fe_from_bytes P bs = None).
  Proof.
    intros L H. unfold fe_from_bytes.
    pose proof (read4 0 bs ltac:(lia)) as E0. change (skipn 0 bs) with bs in E0.
    assert (E2 : skipn (0 + 32) bs = []) by (apply skipn_all2; lia).
    rewrite E2 in E0. cbn [Nat.add le_value] in E0.
    rewrite Z.mul_0_r, Z.add_0_r in E0.
    assert (A0 : u64 (read_le (slice 0 8 bs))) by (apply slice_u64; (exact H || lia)).
    assert (A1 : u64 (read_le (slice 8 8 bs))) by (apply slice_u64; (exact H || lia)).
    assert (A2 : u64 (read_le (slice 16 8 bs))) by (apply slice_u64; (exact H || lia)).
    assert (A3 : u64 (read_le (slice 24 8 bs))) by (apply slice_u64; (exact H || lia)).
    set (x0 := read_le (slice 0 8 bs)) in *. set (x1 := read_le (slice 8 8 bs)) in *.
    set (x2 := read_le (slice 16 8 bs)) in *. set (x3 := read_le (slice 24 8 bs)) in *.
    clearbody x0 x1 x2 x3. cbn [l0 l1 l2 l3].
    pose proof (m0_u P OK) as M0. pose proof (m1_u P OK) as M1.
    pose proof (m2_u P OK) as M2. pose proof (m3_u P OK) as M3.
    fold (m0 P) (m1 P) (m2 P) (m3 P).
    destruct (sbb_spec x0 (m0 P) 0 0 A0 M0 sbb_borrow0) as (d0 & b0 & n0 & F0 & V0 & D0 & K0). rewrite F0.
    destruct (sbb_spec x1 (m1 P) b0 n0 A1 M1 K0) as (d1 & b1 & n1 & F1 & V1 & D1 & K1). rewrite F1.
    destruct (sbb_spec x2 (m2 P) b1 n1 A2 M2 K1) as (d2 & b2 & n2 & F2 & V2 & D2 & K2). rewrite F2.
    destruct (sbb_spec x3 (m3 P) b2 n2 A3 M3 K2) as (d3 & b3 & n3 & F3 & V3 & D3 & K3). rewrite F3.
    assert (V : val4 d0 d1 d2 d3 - w256 * n3 = le_value bs - m).
    { rewrite E0, m_val4. unfold val4. rewrite w256_val. rewrite w64_val in *. lia. }
    pose proof (val4_bound _ _ _ _ D0 D1 D2 D3) as Hb.
    pose proof mpos.
    assert (W : wf_limbs (L4 x0 x1 x2 x3)) by (apply wf_mk; assumption).
    pose proof (from_raw_rep _ W) as R. unfold fe_from_raw in R.
    assert (Ev : val (L4 x0 x1 x2 x3) = le_value bs) by (rewrite E0; rewrite val_val4; reflexivity).
    rewrite Ev in R.
    pose proof (wf_bound _ W) as Wb. rewrite Ev in Wb.
    split; intros Hc.
    - assert (n3 = 1) by (destruct K3 as [[_ ->]|[_ ->]]; lia).
      assert (b3 = w64 - 1) by (destruct K3; lia). subst b3.
      change (Z.land ((w64 - 1) mod 256) 1 =? 1) with true. cbv iota.
      eexists; split; [reflexivity|]. rewrite Z.mod_small in R by lia. exact R.
    - assert (n3 = 0). { destruct K3 as [[_ ->]|[_ ->]]; [reflexivity|]. rewrite w256_val in *. lia. }
      assert (b3 = 0) by (destruct K3; lia). subst b3. reflexivity.
  Qed.

  Lemma mont_out_rep a x : rep a x ->
    canonical P (montgomery_reduce P (l0 a) (l1 a) (l2 a) (l3 a) 0 0 0 0) /\
    val (montgomery_reduce P (l0 a) (l1 a) (l2 a) (l3 a) 0 0 0 0) = x.
  Proof.
    intros (C & Rx & Ex). pose proof C as [(A0 & A1 & A2 & A3) Lt]. rewrite !is_u64_eq in *.
    assert (Z0 : u64 0) by (unfold u64; rewrite w64_val; lia).
    pose proof (montgomery_reduce_spec P OK _ _ _ _ _ _ _ _ A0 A1 A2 A3 Z0 Z0 Z0 Z0) as H.
    cbv zeta in H.
    assert (E8 : val8 (l0 a) (l1 a) (l2 a) (l3 a) 0 0 0 0 = val a).
    { unfold val8. rewrite val_val4. unfold val4. ring. }
    rewrite E8 in H. destruct H as [Cs Vs].
    { destruct (canon_nonneg a C). pose proof (wf_bound _ (proj1 C)).
      assert (m * w256 >= w256) by (pose proof mpos; rewrite w256_val; lia). lia. }
    split; [exact Cs|]. change (2^256) with w256 in Ex. rewrite <- Ex, Zmod_mod in Vs.
    apply W_cancel in Vs. destruct (canon_nonneg _ Cs).
    rewrite !Z.mod_small in Vs by lia. exact Vs.
  Qed.

  Lemma write_le_len n v : length (write_le n v) = n.
  Proof. revert v; induction n; intros v; cbn; [reflexivity|f_equal; auto]. Qed.
  Lemma write_le_bytes n v : Forall is_byte (write_le n v).
  Proof.
    revert v; induction n; intros v; cbn [write_le]; constructor; [|auto].
    apply Z.mod_pos_bound. lia.
  Qed.
  Lemma write_le_value n v : 0 <= v < 256 ^ Z.of_nat n -> le_value (write_le n v) = v.
  Proof.
    revert v; induction n as [|n IH]; intros v H; cbn [write_le le_value].
    - cbn in H. lia.
    - rewrite Nat2Z.inj_succ, Z.pow_succ_r in H by lia.
      rewrite IH. pose proof (Z.div_mod v 256 ltac:(lia)). lia.
      split. apply Z.div_pos; lia. apply Z.div_lt_upper_bound; lia.
  Qed.

  Lemma to_bytes_rep a x : rep a x ->
    length (fe_to_bytes P a) = 32%nat /\ Forall is_byte (fe_to_bytes P a) /\
    le_value (fe_to_bytes P a) = x.
  Proof.
    intros H. destruct (mont_out_rep a x H) as [[(A0 & A1 & A2 & A3) _] V].
    unfold fe_to_bytes. set (t := montgomery_reduce P (l0 a) (l1 a) (l2 a) (l3 a) 0 0 0 0) in *.
    rewrite !is_u64_eq in *.
    split; [rewrite !app_length, !write_le_len; reflexivity|].
    split; [rewrite !Forall_app; repeat split; apply write_le_bytes|].
    rewrite !le_value_app, !write_le_len, !write_le_value by assumption.
    rewrite <- V, val_val4. unfold val4. change (256 ^ Z.of_nat 8) with w64. ring.
  Qed.

  Lemma get_lower_rep a x : rep a x -> fe_get_lower_128 P a = x mod 2 ^ 128.
  Proof.
    intros H. destruct (mont_out_rep a x H) as [[(A0 & A1 & A2 & A3) _] V].
    unfold fe_get_lower_128. set (t := montgomery_reduce P (l0 a) (l1 a) (l2 a) (l3 a) 0 0 0 0) in *.
    rewrite !is_u64_eq in *. 
    assert (Hs : (Z.shiftl (l1 t) 64) mod w128 = l1 t * w64).
    { rewrite Z.shiftl_mul_pow2 by lia. change (2^64) with w64. apply Z.mod_small.
      unfold u64 in A1. rewrite w128_val. rewrite w64_val in *. lia. }
    rewrite Hs.
    assert (Hl : Z.land (l0 t) (l1 t * w64) = 0).
    { apply Z.bits_inj'. intros i Hi. rewrite Z.land_spec, Z.bits_0.
      destruct (Z_lt_le_dec i 64).
      - change w64 with (2^64). rewrite Z.mul_pow2_bits_low by lia. apply andb_false_r.
      - unfold u64 in A0. change w64 with (2^64) in A0.
        rewrite <- (Z.mod_small (l0 t) (2^64)) by exact A0.
        rewrite Z.mod_pow2_bits_high by lia. reflexivity. }
    rewrite <- Z.lxor_lor by exact Hl. rewrite <- Z.add_nocarry_lxor by exact Hl.
    rewrite <- V, val_val4. unfold val4. change (2^128) with (w64*w64).
    replace (l0 t + w64 * (l1 t + w64 * (l2 t + w64 * l3 t)))
      with ((l0 t + l1 t * w64) + (l2 t + w64 * l3 t) * (w64 * w64)) by ring.
    rewrite Z_mod_plus_full. symmetry. apply Z.mod_small. unfold u64 in *. rewrite w64_val in *. lia.
  Qed.

  (** ** Exponentiation *)
  Definition bits_val (l : list bool) (acc : Z) : Z := fold_left (fun a (b : bool) => 2 * a + (if b then 1 else 0)) l acc.

  Lemma pow_fold_rep (step : limbs -> bool -> limbs) a x
    (Hstep : forall r y b, rep r y -> rep (step r b) ((y * y * (if b then x else 1)) mod m)) :
    rep a x -> forall l r e, 0 <= e -> rep r (x ^ e mod m) ->
    rep (fold_left step l r) (x ^ (bits_val l e) mod m).
  Proof.
    intros Ha. induction l as [|b l IH]; intros r e He Hr; cbn [fold_left bits_val].
    - exact Hr.
    - apply IH; [destruct b; lia|].
      specialize (Hstep r _ b Hr).
      replace (x ^ (2 * e + (if b then 1 else 0)) mod m)
        with ((x ^ e mod m * (x ^ e mod m) * (if b then x else 1)) mod m); [exact Hstep|].
      rewrite <- Zmult_mod_idemp_l, <- Zmult_mod, Zmult_mod_idemp_l. f_equal.
      rewrite Z.pow_add_r by (destruct b; lia). replace (2 * e) with (e + e) by ring.
      rewrite Z.pow_add_r by lia. destruct b; [rewrite Z.pow_1_r|rewrite Z.pow_0_r]; ring.
  Qed.

  Lemma bits_val_app l l' acc : bits_val (l ++ l') acc = bits_val l' (bits_val l acc).
  Proof. apply fold_left_app. Qed.

  Lemma limb_bits_rev_val e acc n : 0 <= e < 2 ^ Z.of_nat n ->
    bits_val (map (fun i => Z.land (Z.shiftr e (Z.of_nat i)) 1 =? 1) (rev (seq 0 n))) acc
    = 2 ^ Z.of_nat n * acc + e.
  Proof.
    revert e acc. induction n as [|n IH]; intros e acc H.
    - change (2 ^ Z.of_nat 0) with 1 in *. unfold bits_val. cbn [seq rev map fold_left]. lia.
    - rewrite seq_S, rev_app_distr. cbn [rev app map Nat.add].
      unfold bits_val. cbn [fold_left]. fold (bits_val).
      rewrite Nat2Z.inj_succ, Z.pow_succ_r in * by lia.
      set (top := e / 2 ^ Z.of_nat n).
      assert (Hp : 0 < 2 ^ Z.of_nat n) by (apply Z.pow_pos_nonneg; lia).
      assert (Ht : 0 <= top < 2) by (unfold top; split; [apply Z.div_pos; lia|apply Z.div_lt_upper_bound; lia]).
      assert (Etop : (if Z.land (Z.shiftr e (Z.of_nat n)) 1 =? 1 then 1 else 0) = top).
      { rewrite Z.shiftr_div_pow2 by lia. fold top. change 1 with (Z.ones 1) at 1.
        rewrite Z.land_ones by lia. change (2 ^ 1) with 2. rewrite Z.mod_small by lia.
        destruct (Z.eqb_spec top 1); lia. }
      rewrite Etop.
      assert (Hlow : map (fun i => Z.land (Z.shiftr e (Z.of_nat i)) 1 =? 1) (rev (seq 0 n))
                   = map (fun i => Z.land (Z.shiftr (e mod 2 ^ Z.of_nat n) (Z.of_nat i)) 1 =? 1) (rev (seq 0 n))).
      { apply map_ext_in. intros i Hi. apply in_rev, in_seq in Hi. f_equal.
        change 1 with (Z.ones 1). rewrite !Z.land_ones, <- !Z.bit0_mod, !Z.shiftr_spec, Z.mod_pow2_bits_low by lia.
        reflexivity. }
      rewrite Hlow. rewrite IH by (apply Z.mod_pos_bound; lia).
      pose proof (Z.div_mod e (2 ^ Z.of_nat n) ltac:(lia)). fold top in H0. lia.
  Qed.

  Lemma exp_bits_rev_val e : wf_limbs e -> bits_val (exp_bits_rev e) 0 = val e.
  Proof.
    intros (A0 & A1 & A2 & A3). unfold exp_bits_rev, limb_bits_rev.
    rewrite !bits_val_app, !limb_bits_rev_val by assumption.
    rewrite val_val4. unfold val4. change (2 ^ Z.of_nat 64) with w64. ring.
  Qed.

  Lemma pow_vartime_rep a x e : rep a x -> wf_limbs e ->
    rep (fe_pow_vartime P a e) (x ^ val e mod m).
  Proof.
    intros Ha He. rewrite <- (exp_bits_rev_val e He). unfold fe_pow_vartime, pow_vartime.
    apply (pow_fold_rep _ a x); [|exact Ha|lia|].
    - intros r y b Hr. pose proof (square_rep _ _ Hr) as Hs. destruct b.
      + pose proof (mul_rep _ _ _ _ Hs Ha) as Hm. rewrite Zmult_mod_idemp_l in Hm. exact Hm.
      + rewrite Z.mul_1_r. exact Hs.
    - rewrite Z.pow_0_r, Z.mod_1_l by exact mbig. exact one_rep.
  Qed.

  Lemma pow_rep a x e : rep a x -> wf_limbs e ->
    rep (fe_pow P a e) (x ^ val e mod m).
  Proof.
    intros Ha He. rewrite <- (exp_bits_rev_val e He). unfold fe_pow, pow.
    apply (pow_fold_rep _ a x); [|exact Ha|lia|].
    - intros r y b Hr. pose proof (square_rep _ _ Hr) as Hs. cbv zeta. unfold select. destruct b.
      + pose proof (mul_rep _ _ _ _ Hs Ha) as Hm. rewrite Zmult_mod_idemp_l in Hm. exact Hm.
      + rewrite Z.mul_1_r. exact Hs.
    - rewrite Z.pow_0_r, Z.mod_1_l by exact mbig. exact one_rep.
  Qed.
End Rep.
