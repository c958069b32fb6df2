(** Arithmetic of bit lists and words. *)
From Coq Require Import List Bool ZArith Lia.
From Verif Require Import Model.FieldTrait Model.Circuits Model.Boolean Model.UInt Spec.CircuitSpec
  Spec.BoolSpec Spec.UIntSpec Proofs.UnpackP Proofs.AlwaysP.
Import ListNotations.
Open Scope Z_scope. Open Scope list_scope.

Lemma bits_of_length n z : length (bits_of n z) = n.
Proof. exact (low_bits_length n z). Qed.
Lemma bits_of_val n z : bits_val (bits_of n z) = z mod 2 ^ Z.of_nat n.
Proof. exact (low_bits_val n z). Qed.
Lemma bits_of_word n z : in_word n z -> bits_val (bits_of n z) = z.
Proof. intro H. rewrite bits_of_val. apply Z.mod_small. exact H. Qed.
Lemma bits_of_bits_val bs : bits_of (length bs) (bits_val bs) = bs.
Proof.
  apply bits_val_inj; [apply bits_of_length|]. apply bits_of_word. unfold in_word. apply bits_val_range.
Qed.
Lemma bits_of_eq n z bs : length bs = n -> bits_val bs = z mod 2 ^ Z.of_nat n -> bits_of n z = bs.
Proof. intros HL HV. apply bits_val_inj; rewrite ?bits_of_length; auto. rewrite bits_of_val. auto. Qed.
Lemma bits_val_in_word bs : in_word (length bs) (bits_val bs).
Proof. apply bits_val_range. Qed.
Lemma bits_val_firstn k bs : bits_val (firstn k bs) = bits_val bs mod 2 ^ Z.of_nat (min k (length bs)).
Proof.
  rewrite <- (firstn_skipn k bs) at 2. rewrite bits_val_app.
  replace (length (firstn k bs)) with (min k (length bs)) by (rewrite firstn_length; reflexivity).
  rewrite Z.mul_comm, Z_mod_plus_full. symmetry. apply Z.mod_small.
  pose proof (bits_val_range (firstn k bs)) as H. rewrite firstn_length in H. exact H.
Qed.
Lemma bits_val_skipn k bs : (k <= length bs)%nat -> bits_val (skipn k bs) = bits_val bs / 2 ^ Z.of_nat k.
Proof.
  intro Hk. rewrite <- (firstn_skipn k bs) at 2. rewrite bits_val_app, firstn_length, Nat.min_l by exact Hk.
  rewrite Z.mul_comm, Z.div_add by (pose proof (Z.pow_pos_nonneg 2 (Z.of_nat k)); lia).
  rewrite Z.div_small; [reflexivity|].
  pose proof (bits_val_range (firstn k bs)) as H. rewrite firstn_length, Nat.min_l in H by exact Hk. exact H.
Qed.

Lemma in_word_op1 n (f : Z -> Z) z : 0 <= f z -> Z.of_nat n > 0 -> in_word n z ->
  (forall i, Z.of_nat n <= i -> Z.testbit (f z) i = false) -> in_word n (f z).
Proof.
  intros H0 Hn Hz H. split; [exact H0|].
  destruct (Z.eq_dec (f z) 0) as [E|E]; [rewrite E; apply Z.pow_pos_nonneg; lia|].
  apply Z.log2_lt_pow2; [lia|]. destruct (Z_lt_ge_dec (Z.log2 (f z)) (Z.of_nat n)) as [L|L]; [exact L|].
  specialize (H (Z.log2 (f z)) ltac:(lia)). rewrite Z.bit_log2 in H by lia. discriminate H.
Qed.
Lemma in_word_bits n z : 0 <= z -> (forall i, Z.of_nat n <= i -> Z.testbit z i = false) -> in_word n z.
Proof.
  intros H0 H. split; [exact H0|].
  destruct (Z.eq_dec z 0) as [->|E]; [apply Z.pow_pos_nonneg; lia|].
  apply Z.log2_lt_pow2; [lia|]. destruct (Z_lt_ge_dec (Z.log2 z) (Z.of_nat n)) as [L|L]; [exact L|].
  specialize (H (Z.log2 z) ltac:(lia)). rewrite Z.bit_log2 in H by lia. discriminate H.
Qed.
Lemma word_high n z i : in_word n z -> Z.of_nat n <= i -> Z.testbit z i = false.
Proof.
  intros [H0 H1] Hi. destruct (Z.eq_dec z 0) as [->|E]; [apply Z.testbit_0_l|].
  apply Z.bits_above_log2; [exact H0|]. apply Z.log2_lt_pow2 in H1; lia.
Qed.

Lemma lxor_word n x y : in_word n x -> in_word n y -> in_word n (Z.lxor x y).
Proof.
  intros Hx Hy. apply in_word_bits.
  - apply Z.lxor_nonneg. destruct Hx, Hy. tauto.
  - intros i Hi. rewrite Z.lxor_spec, (word_high n x), (word_high n y) by assumption. reflexivity.
Qed.
Lemma land_word n x y : in_word n x -> in_word n y -> in_word n (Z.land x y).
Proof.
  intros Hx Hy. apply in_word_bits.
  - apply Z.land_nonneg. destruct Hx. tauto.
  - intros i Hi. rewrite Z.land_spec, (word_high n x), (word_high n y) by assumption. reflexivity.
Qed.
Lemma not_word x : in_word 32 x -> in_word 32 (NOT x).
Proof. unfold in_word, NOT. change (Z.of_nat 32) with 32. lia. Qed.
Lemma not_testbit x i : 0 <= i < 32 -> in_word 32 x -> Z.testbit (NOT x) i = negb (Z.testbit x i).
Proof.
  intros Hi Hx. assert (E : NOT x = Z.lnot x mod 2 ^ 32).
  { unfold NOT, Z.lnot. apply (Z.mod_unique _ _ (-1)).
    - left. unfold in_word in Hx. change (Z.of_nat 32) with 32 in Hx. lia.
    - lia. }
  rewrite E, Z.mod_pow2_bits_low by lia. apply Z.lnot_spec. lia.
Qed.

Lemma map_seq_ext {A} n (f g : nat -> A) : (forall i, (i < n)%nat -> f i = g i) -> map f (seq 0 n) = map g (seq 0 n).
Proof. intro H. apply map_ext_in. intros i Hi. apply H. apply in_seq in Hi. lia. Qed.
Lemma combine_map {A B C} (f : A -> B) (g : A -> C) l : combine (map f l) (map g l) = map (fun a => (f a, g a)) l.
Proof. induction l; simpl; congruence. Qed.
Lemma bits_of_lxor n x y : map (fun '(a, b) => xorb a b) (combine (bits_of n x) (bits_of n y)) = bits_of n (Z.lxor x y).
Proof.
  unfold bits_of. rewrite combine_map, map_map. apply map_ext. intro i. symmetry. apply Z.lxor_spec.
Qed.
Lemma bits_of_CH x y z : in_word 32 x ->
  map (fun '(a, b, c) => Ch a b c) (combine (combine (bits_of 32 x) (bits_of 32 y)) (bits_of 32 z)) = bits_of 32 (CH x y z).
Proof.
  intro Hx. unfold bits_of. rewrite !combine_map, map_map. apply map_seq_ext. intros i Hi.
  unfold CH. rewrite Z.lxor_spec, !Z.land_spec, not_testbit by (lia || assumption).
  unfold Ch. destruct (Z.testbit x _), (Z.testbit y _), (Z.testbit z _); reflexivity.
Qed.
Lemma bits_of_MAJ x y z :
  map (fun '(a, b, c) => Maj a b c) (combine (combine (bits_of 32 x) (bits_of 32 y)) (bits_of 32 z)) = bits_of 32 (MAJ x y z).
Proof.
  unfold bits_of. rewrite !combine_map, map_map. apply map_seq_ext. intros i Hi.
  unfold MAJ. rewrite !Z.lxor_spec, !Z.land_spec.
  unfold Maj. destruct (Z.testbit x _), (Z.testbit y _), (Z.testbit z _); reflexivity.
Qed.
Lemma CH_word x y z : in_word 32 x -> in_word 32 y -> in_word 32 z -> in_word 32 (CH x y z).
Proof. intros. apply lxor_word; apply land_word; auto using not_word. Qed.
Lemma MAJ_word x y z : in_word 32 x -> in_word 32 y -> in_word 32 z -> in_word 32 (MAJ x y z).
Proof. intros. apply lxor_word; [apply lxor_word|]; apply land_word; auto. Qed.

Lemma bits_val_repeat_false k : bits_val (repeat false k) = 0.
Proof. induction k as [|k IH]; [reflexivity|]. cbn [repeat bits_val Z.b2z]. rewrite IH. reflexivity. Qed.
Lemma firstn_app_exact {A} k n (a b : list A) : length a = k -> (n <= k + length b)%nat -> (k <= n)%nat ->
  firstn n (a ++ b) = a ++ firstn (n - k) b.
Proof. intros H _ Hk. rewrite firstn_app, H, firstn_all2 by lia. reflexivity. Qed.

Lemma bits_of_ROTR k z : (k < 32)%nat -> in_word 32 z ->
  firstn 32 (skipn k (bits_of 32 z) ++ bits_of 32 z) = bits_of 32 (ROTR (Z.of_nat k) z).
Proof.
  intros Hk Hz. symmetry.
  assert (HL : length (skipn k (bits_of 32 z)) = (32 - k)%nat) by (rewrite skipn_length, bits_of_length; reflexivity).
  assert (Hd : 0 <= z / 2 ^ Z.of_nat k < 2 ^ (32 - Z.of_nat k)).
  { unfold in_word in Hz. change (Z.of_nat 32) with 32 in Hz. split.
    - apply Z.div_pos; [lia|]. apply Z.pow_pos_nonneg; lia.
    - apply Z.div_lt_upper_bound; [apply Z.pow_pos_nonneg; lia|].
      rewrite <- Z.pow_add_r by lia. replace (Z.of_nat k + (32 - Z.of_nat k)) with 32 by lia. lia. }
  pose proof (Z.mod_pos_bound z (2 ^ Z.of_nat k) ltac:(apply Z.pow_pos_nonneg; lia)) as Hm.
  rewrite (firstn_app_exact (32 - k)) by (rewrite ?bits_of_length; lia).
  apply bits_of_eq.
  - rewrite app_length, HL, firstn_length, bits_of_length. lia.
  - rewrite bits_val_app, HL, bits_val_skipn, bits_val_firstn by (rewrite bits_of_length; lia).
    rewrite bits_of_length. replace (32 - (32 - k))%nat with k by lia. rewrite Nat.min_l by lia.
    rewrite (bits_of_word 32 z Hz).
    transitivity (ROTR (Z.of_nat k) z); [|symmetry; apply Z.mod_small].
    + unfold ROTR. rewrite Nat2Z.inj_sub by lia. change (Z.of_nat 32) with 32. ring.
    + unfold ROTR. change (Z.of_nat 32) with 32.
      assert (E : 2 ^ 32 = 2 ^ Z.of_nat k * 2 ^ (32 - Z.of_nat k)).
      { rewrite <- Z.pow_add_r by lia. f_equal. lia. }
      rewrite E. nia.
Qed.
Lemma ROTR_word k z : (k < 32)%nat -> in_word 32 z -> in_word 32 (ROTR (Z.of_nat k) z).
Proof.
  intros Hk Hz. unfold in_word in *. change (Z.of_nat 32) with 32 in *.
  assert (Hd : 0 <= z / 2 ^ Z.of_nat k < 2 ^ (32 - Z.of_nat k)).
  { split.
    - apply Z.div_pos; [lia|]. apply Z.pow_pos_nonneg; lia.
    - apply Z.div_lt_upper_bound; [apply Z.pow_pos_nonneg; lia|].
      rewrite <- Z.pow_add_r by lia. replace (Z.of_nat k + (32 - Z.of_nat k)) with 32 by lia. lia. }
  pose proof (Z.mod_pos_bound z (2 ^ Z.of_nat k) ltac:(apply Z.pow_pos_nonneg; lia)) as Hm.
  assert (E : 2 ^ 32 = 2 ^ Z.of_nat k * 2 ^ (32 - Z.of_nat k)).
  { rewrite <- Z.pow_add_r by lia. f_equal. lia. }
  unfold ROTR. rewrite E. nia.
Qed.
Lemma rotate_right32_ROTR z k : 0 <= k < 32 -> rotate_right32 z k = ROTR k z.
Proof. intro H. unfold rotate_right32, ROTR. rewrite Z.shiftr_div_pow2, Z.shiftl_mul_pow2 by lia. reflexivity. Qed.
Lemma bits_of_SHR k z : (k < 32)%nat -> in_word 32 z ->
  firstn 32 (skipn k (bits_of 32 z) ++ repeat false 32) = bits_of 32 (SHR (Z.of_nat k) z).
Proof.
  intros Hk Hz. symmetry.
  assert (HL : length (skipn k (bits_of 32 z)) = (32 - k)%nat) by (rewrite skipn_length, bits_of_length; reflexivity).
  rewrite (firstn_app_exact (32 - k)) by (rewrite ?repeat_length; lia).
  apply bits_of_eq.
  - rewrite app_length, HL, firstn_length, repeat_length. lia.
  - rewrite bits_val_app, HL, bits_val_skipn, bits_val_firstn by (rewrite bits_of_length; lia).
    rewrite bits_val_repeat_false, (bits_of_word 32 z Hz). rewrite Z.mod_0_l by (apply Z.pow_nonzero; lia).
    transitivity (SHR (Z.of_nat k) z); [unfold SHR; ring|symmetry; apply Z.mod_small]. unfold SHR, in_word in *. change (Z.of_nat 32) with 32 in *. split.
    + apply Z.div_pos; [lia|]. apply Z.pow_pos_nonneg; lia.
    + apply Z.le_lt_trans with z; [|lia]. apply Z.div_le_upper_bound; [apply Z.pow_pos_nonneg; lia|].
      pose proof (Z.pow_pos_nonneg 2 (Z.of_nat k)). nia.
Qed.
Lemma SHR_word k z : in_word 32 z -> in_word 32 (SHR (Z.of_nat k) z).
Proof.
  unfold SHR, in_word in *. change (Z.of_nat 32) with 32 in *. intro H. split.
  - apply Z.div_pos; [lia|]. apply Z.pow_pos_nonneg; lia.
  - apply Z.le_lt_trans with z; [|lia]. apply Z.div_le_upper_bound; [apply Z.pow_pos_nonneg; lia|].
    pose proof (Z.pow_pos_nonneg 2 (Z.of_nat k)). nia.
Qed.
