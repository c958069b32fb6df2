(** The serial and the parallel FFT compute the discrete Fourier transform. *)
From Coq Require Import List Bool ZArith Arith Lia Ring Field.
From Verif Require Import Model.FieldTrait Model.Threads Model.Util Spec.FieldLaws Spec.UtilSpec Proofs.FieldGen Proofs.ThreadsP Proofs.SumP.
Import ListNotations.
Open Scope nat_scope.

(** ** Bit reversal *)
Fixpoint rv (l n : nat) : nat :=
  match l with O => 0 | S l => (n mod 2) * 2 ^ l + rv l (n / 2) end.
Lemma rv_lt l : forall n, rv l n < 2 ^ l.
Proof.
  induction l as [|l IH]; intro n; cbn [rv Nat.pow]; [lia|]. specialize (IH (n / 2)).
  pose proof (Nat.mod_upper_bound n 2 ltac:(lia)). nia.
Qed.
(** the high bit goes to the bottom *)
Lemma rv_high l : forall n b, n < 2 ^ l -> rv (S l) (b * 2 ^ l + n) = b mod 2 + 2 * rv l n.
Proof.
  induction l as [|l IH]; intros n b Hn.
  - cbn [Nat.pow] in Hn. assert (n = 0) by lia. subst n. cbn [rv Nat.pow]. rewrite ?Nat.mul_1_r, ?Nat.mul_0_r, ?Nat.add_0_r, ?Nat.mul_1_r. reflexivity.
  - cbn [rv] in *. cbn [Nat.pow].
    assert (E : b * (2 * 2 ^ l) + n = 2 * (b * 2 ^ l + n / 2) + n mod 2).
    { pose proof (Nat.div_mod n 2 ltac:(lia)). lia. }
    pose proof (Nat.mod_upper_bound n 2 ltac:(lia)) as Hm.
    assert (E1 : (b * (2 * 2 ^ l) + n) mod 2 = n mod 2).
    { rewrite E, Nat.add_comm, Nat.mul_comm, Nat.mod_add by lia. apply Nat.mod_mod. lia. }
    assert (E2 : (b * (2 * 2 ^ l) + n) / 2 = b * 2 ^ l + n / 2).
    { rewrite E, Nat.add_comm, (Nat.mul_comm 2 (b * 2 ^ l + n / 2)), Nat.div_add by lia. rewrite (Nat.div_small (n mod 2)) by lia. reflexivity. }
    rewrite E1, E2.
    assert (Hn2 : n / 2 < 2 ^ l) by (apply Nat.div_lt_upper_bound; cbn [Nat.pow] in Hn; lia).
    specialize (IH (n / 2) b Hn2). rewrite IH. ring.
Qed.
Lemma rv_even l n : n < 2 ^ l -> rv (S l) (2 * n) = rv l n.
Proof.
  intro H. cbn [rv]. rewrite (Nat.mul_comm 2 n), Nat.mod_mul, Nat.div_mul by lia. reflexivity.
Qed.
Lemma rv_odd l n : n < 2 ^ l -> rv (S l) (2 * n + 1) = 2 ^ l + rv l n.
Proof.
  intro H. cbn [rv]. replace (2 * n + 1) with (1 + n * 2) by lia. rewrite Nat.mod_add, Nat.div_add by lia.
  change (1 mod 2) with 1. change (1 / 2) with 0. cbn [Nat.add]. lia.
Qed.
Lemma rv_involutive l : forall n, n < 2 ^ l -> rv l (rv l n) = n.
Proof.
  induction l as [|l IH]; intros n H; [cbn in H; cbn; lia|].
  change (rv (S l) n) with ((n mod 2) * 2 ^ l + rv l (n / 2)). rewrite rv_high by apply rv_lt. rewrite IH by (apply Nat.div_lt_upper_bound; cbn [Nat.pow] in H; lia).
  rewrite Nat.mod_mod by lia. pose proof (Nat.div_mod n 2 ltac:(lia)). lia.
Qed.
Lemma bitreverse_rv l n : n < 2 ^ l -> Z.to_nat (bitreverse (Z.of_nat n) l) = rv l n.
Proof.
  unfold bitreverse. intro Hn.
  assert (G : forall l s (r : nat) n, n < 2 ^ l ->
    fst (fold_left (fun '(r, n) (_ : nat) => (Z.lor (Z.shiftl r 1) (Z.land n 1), Z.shiftr n 1)) (seq s l) (Z.of_nat r, Z.of_nat n))
    = Z.of_nat (r * 2 ^ l + rv l n)).
  { clear. induction l as [|l IH]; intros s r n H; [cbn [seq fold_left fst Nat.pow rv]; lia|].
    cbn [seq fold_left].
    assert (E1 : Z.lor (Z.shiftl (Z.of_nat r) 1) (Z.land (Z.of_nat n) 1) = Z.of_nat (2 * r + n mod 2)).
    { change 1%Z with (Z.ones 1) at 2. rewrite Z.land_ones by lia.
      assert (L0 : Z.land (Z.shiftl (Z.of_nat r) 1) (Z.of_nat n mod 2 ^ 1) = 0%Z).
      { apply Z.bits_inj'. intros i Hi. rewrite Z.land_spec, Z.bits_0. destruct (Z.eq_dec i 0) as [->|Hne].
        - rewrite Z.shiftl_spec_low by lia. reflexivity.
        - rewrite Z.mod_pow2_bits_high by lia. apply andb_false_r. }
      rewrite <- Z.lxor_lor, <- Z.add_nocarry_lxor by exact L0. rewrite Z.shiftl_mul_pow2 by lia. change (2 ^ 1)%Z with 2%Z.
      rewrite Nat2Z.inj_add, Nat2Z.inj_mul, Nat2Z.inj_mod. lia. }
    assert (E2 : Z.shiftr (Z.of_nat n) 1 = Z.of_nat (n / 2)).
    { rewrite Z.shiftr_div_pow2 by lia. rewrite Nat2Z.inj_div. reflexivity. }
    rewrite E1, E2, IH by (apply Nat.div_lt_upper_bound; cbn [Nat.pow] in H; lia).
    cbn [rv Nat.pow]. f_equal. lia. }
  specialize (G l 0 0 n Hn). change (Z.of_nat 0) with 0%Z in G. rewrite G, Nat2Z.id. lia.
Qed.

Lemma nth_map_seq {A} (f : nat -> A) n k d : k < n -> nth k (map f (seq 0 n)) d = f k.
Proof.
  intro H. rewrite (nth_indep _ d (f 0)) by (rewrite map_length, seq_length; exact H).
  rewrite map_nth, seq_nth by exact H. reflexivity.
Qed.

Lemma pow2_pos n : 0 < 2 ^ n. Proof. apply Nat.neq_0_lt_0, Nat.pow_nonzero. lia. Qed.
Lemma pow2_lt L : L < 32 -> (Z.of_nat (2 ^ L) < 2 ^ 32)%Z.
Proof. intro H. rewrite Nat2Z.inj_pow. change (Z.of_nat 2) with 2%Z. apply Z.pow_lt_mono_r; lia. Qed.

Section Fft.
  Context {F : Field} {p v} (OL : OpsLaws F p v).
  Add Field Ff : (ffield OL).
  Notation "a [+] b" := (fadd a b) (at level 50, left associativity). Notation "a [*] b" := (fmul a b) (at level 40, left associativity).
  Notation "a [-] b" := (fsub a b) (at level 50, left associativity).

  (** ** The permutation *)
  Lemma swap_length (a : list F) i j : length (swap a i j) = length a.
  Proof. unfold swap. rewrite !at_index_length. reflexivity. Qed.
  Lemma swap_nth (a : list F) i j k : i < length a -> j < length a ->
    nth k (swap a i j) fzero = nth (if Nat.eqb k i then j else if Nat.eqb k j then i else k) a fzero.
  Proof.
    intros Hi Hj. unfold swap. rewrite !at_index_nth, !at_index_length.
    rewrite (proj2 (Nat.ltb_lt _ _) Hi), (proj2 (Nat.ltb_lt _ _) Hj).
    destruct (Nat.eqb_spec j i) as [E|H3].
    - subst i. destruct (Nat.eqb_spec k j); reflexivity.
    - destruct (Nat.eqb_spec k j) as [E1|H1]; [subst k|destruct (Nat.eqb k i); reflexivity]. destruct (Nat.eqb_spec j i); [congruence|reflexivity].
  Qed.
  Lemma permute (a : list F) l : length a = 2 ^ l ->
    let a' := fold_left (fun a k =>
                 let rk := Z.to_nat (bitreverse (Z.of_nat k) l) in
                 if (k <? rk)%nat then swap a rk k else a) (seq 0 (2 ^ l)) a in
    length a' = 2 ^ l /\ forall k, k < 2 ^ l -> nth k a' fzero = nth (rv l k) a fzero.
  Proof.
    intro HL. cbv zeta.
    assert (G : forall n, n <= 2 ^ l ->
      let a' := fold_left (fun a k =>
                 let rk := Z.to_nat (bitreverse (Z.of_nat k) l) in
                 if (k <? rk)%nat then swap a rk k else a) (seq 0 n) a in
      length a' = 2 ^ l /\ forall k, k < 2 ^ l ->
        nth k a' fzero = nth (if (k <? n) || (rv l k <? n) then rv l k else k) a fzero).
    { induction n as [|n IH]; intro Hn; cbv zeta; [split; [exact HL|intros; reflexivity]|].
      rewrite seq_S, fold_left_app. cbn [fold_left Nat.add]. cbv zeta in IH. destruct (IH ltac:(lia)) as [IL IN]. clear IH.
      set (a' := fold_left _ (seq 0 n) a) in *. rewrite bitreverse_rv by lia.
      pose proof (rv_lt l n) as Hr. pose proof (rv_involutive l n ltac:(lia)) as Hi.
      destruct (Nat.ltb_spec n (rv l n)) as [Hlt|Hge].
      - rewrite swap_length. split; [exact IL|]. intros k Hk. rewrite swap_nth by (rewrite IL; lia).
        destruct (Nat.eqb_spec k (rv l n)) as [->|H1].
        + rewrite IN by lia. rewrite Hi. destruct (Nat.ltb_spec n n); [lia|]. destruct (Nat.ltb_spec (rv l n) n); [lia|].
          destruct (Nat.ltb_spec (rv l n) (S n)); [lia|]. destruct (Nat.ltb_spec n (S n)); [|lia]. reflexivity.
        + destruct (Nat.eqb_spec k n) as [->|H2].
          * rewrite IN by lia. rewrite Hi. destruct (Nat.ltb_spec n n); [lia|]. destruct (Nat.ltb_spec (rv l n) n); [lia|].
            destruct (Nat.ltb_spec n (S n)); [|lia]. reflexivity.
          * rewrite IN by lia. assert (H3 : rv l k <> n) by (intros E; apply H1; rewrite <- E; symmetry; apply rv_involutive, Hk).
            destruct (Nat.ltb_spec k n); destruct (Nat.ltb_spec k (S n)); try lia; [reflexivity|].
            destruct (Nat.ltb_spec (rv l k) n); destruct (Nat.ltb_spec (rv l k) (S n)); try lia; reflexivity.
      - split; [exact IL|]. intros k Hk. rewrite IN by lia.
        destruct (Nat.ltb_spec k n) as [A1|A1]; destruct (Nat.ltb_spec k (S n)) as [A2|A2]; try lia; [reflexivity| |].
        + assert (k = n) by lia. subst k. destruct (Nat.ltb_spec (rv l n) n) as [A3|A3]; [reflexivity|].
          cbn [orb]. f_equal. lia.
        + destruct (Nat.ltb_spec (rv l k) n) as [A3|A3]; destruct (Nat.ltb_spec (rv l k) (S n)) as [A4|A4]; try lia; try reflexivity.
          exfalso. assert (E : rv l k = n) by lia. pose proof (rv_involutive l k Hk) as E2. rewrite E in E2. lia. }
    destruct (G (2 ^ l) (le_n _)) as [GL GN]. split; [exact GL|]. intros k Hk. rewrite GN by exact Hk.
    destruct (Nat.ltb_spec k (2 ^ l)); [reflexivity|lia].
  Qed.

  (** ** Butterflies *)
  Lemma butterfly_loop k m w_m (a : list F) : k + 2 * m <= length a -> forall n, n <= m ->
    let st := fold_left (butterfly k m w_m) (seq 0 n) (a, fone) in
    snd st = fpow w_m n /\ length (fst st) = length a /\
    forall i, nth i (fst st) fzero =
      if (k <=? i) && (i <? k + n) then nth i a fzero [+] nth (i + m) a fzero [*] fpow w_m (i - k)
      else if (k + m <=? i) && (i <? k + m + n) then nth (i - m) a fzero [-] nth i a fzero [*] fpow w_m (i - m - k)
      else nth i a fzero.
  Proof.
    intro HL. induction n as [|n IH]; intro Hn; cbv zeta.
    - cbn [seq fold_left fst snd]. split; [reflexivity|]. split; [reflexivity|]. intro i.
      destruct (Nat.leb_spec k i), (Nat.ltb_spec i (k + 0)); try lia; cbn [andb];
      destruct (Nat.leb_spec (k + m) i), (Nat.ltb_spec i (k + m + 0)); try lia; reflexivity.
    - rewrite seq_S, fold_left_app. cbn [fold_left Nat.add]. cbv zeta in IH. destruct (IH ltac:(lia)) as (I1 & I2 & I3). clear IH.
      destruct (fold_left (butterfly k m w_m) (seq 0 n) (a, fone)) as [a' w]. cbn [fst snd] in *. subst w.
      cbn [butterfly fst snd]. split; [cbn [fpow]; ring|]. split; [rewrite !at_index_length; exact I2|]. intro i.
      rewrite !at_index_nth, !at_index_length, I2.
      rewrite (proj2 (Nat.ltb_lt (k + n) (length a))) by lia. rewrite (proj2 (Nat.ltb_lt (k + n + m) (length a))) by lia.
      destruct (Nat.eqb_spec (k + n) (k + n + m)) as [E|_]; [lia|].
      assert (V1 : nth (k + n) a' fzero = nth (k + n) a fzero).
      { rewrite I3. destruct (Nat.leb_spec k (k + n)), (Nat.ltb_spec (k + n) (k + n)); try lia; cbn [andb].
        destruct (Nat.leb_spec (k + m) (k + n)), (Nat.ltb_spec (k + n) (k + m + n)); try lia; reflexivity. }
      assert (V2 : nth (k + n + m) a' fzero = nth (k + n + m) a fzero).
      { rewrite I3. destruct (Nat.leb_spec k (k + n + m)), (Nat.ltb_spec (k + n + m) (k + n)); try lia; cbn [andb].
        destruct (Nat.leb_spec (k + m) (k + n + m)), (Nat.ltb_spec (k + n + m) (k + m + n)); try lia; reflexivity. }
      rewrite V1, V2.
      destruct (Nat.eqb_spec i (k + n)) as [->|H1].
      + destruct (Nat.leb_spec k (k + n)), (Nat.ltb_spec (k + n) (k + S n)); try lia; cbn [andb].
        replace (k + n - k) with n by lia. reflexivity.
      + destruct (Nat.eqb_spec i (k + n + m)) as [->|H2].
        * destruct (Nat.leb_spec k (k + n + m)), (Nat.ltb_spec (k + n + m) (k + S n)); try lia; cbn [andb];
          destruct (Nat.leb_spec (k + m) (k + n + m)), (Nat.ltb_spec (k + n + m) (k + m + S n)); try lia; cbn [andb].
          replace (k + n + m - m) with (k + n) by lia. replace (k + n - k) with n by lia. reflexivity.
        * rewrite I3.
          destruct (Nat.leb_spec k i) as [A1|A1], (Nat.ltb_spec i (k + n)) as [A2|A2], (Nat.ltb_spec i (k + S n)) as [A3|A3]; try lia; cbn [andb]; try reflexivity;
          destruct (Nat.leb_spec (k + m) i) as [A4|A4], (Nat.ltb_spec i (k + m + n)) as [A5|A5], (Nat.ltb_spec i (k + m + S n)) as [A6|A6]; try lia; reflexivity.
  Qed.

  Definition combined (a : list F) (m : nat) (w : F) (i : nat) : F :=
    let j := i mod (2 * m) in
    if j <? m then nth i a fzero [+] nth (i + m) a fzero [*] fpow w j
    else nth (i - m) a fzero [-] nth i a fzero [*] fpow w (j - m).
  Lemma block_mod b m j : 0 < m -> j < 2 * m -> (b * (2 * m) + j) mod (2 * m) = j.
  Proof. intros Hm Hj. rewrite Nat.add_comm, Nat.mod_add by lia. apply Nat.mod_small, Hj. Qed.
  Lemma blocks_loop m w_m B : 0 < m -> forall fuel b (a : list F), length a = B * (2 * m) -> B <= b + fuel -> b <= B ->
    let a' := fft_blocks fuel (B * (2 * m)) (b * (2 * m)) m w_m a in
    length a' = length a /\
    forall i, i < length a -> nth i a' fzero = if i <? b * (2 * m) then nth i a fzero else combined a m w_m i.
  Proof.
    intro Hm. induction fuel as [|fuel IH]; intros b a HL Hf Hb; cbn [fft_blocks]; cbv zeta.
    - split; [reflexivity|]. intros i Hi. assert (b = B) by lia. subst b.
      destruct (Nat.ltb_spec i (B * (2 * m))); [reflexivity|lia].
    - destruct (Nat.ltb_spec (b * (2 * m)) (B * (2 * m))) as [Hlt|Hge].
      2: { split; [reflexivity|]. intros i Hi. assert (b = B) by nia. subst b. destruct (Nat.ltb_spec i (B * (2 * m))); [reflexivity|lia]. }
      assert (HbB : S b <= B) by nia.
      assert (HkL : b * (2 * m) + 2 * m <= length a) by (rewrite HL; nia).
      destruct (butterfly_loop (b * (2 * m)) m w_m a HkL m (le_n _)) as (_ & L1 & N1). cbv zeta in L1, N1.
      set (a1 := fst (fold_left _ (seq 0 m) (a, fone))) in *.
      replace (b * (2 * m) + 2 * m) with (S b * (2 * m)) by lia.
      destruct (IH (S b) a1 ltac:(congruence) ltac:(lia) HbB) as [L2 N2]. cbv zeta in L2, N2. split; [congruence|].
      intros i Hi. rewrite N2 by lia. clear N2 IH.
      destruct (Nat.ltb_spec i (S b * (2 * m))) as [A1|A1]; destruct (Nat.ltb_spec i (b * (2 * m))) as [A2|A2].
      + rewrite N1. destruct (Nat.leb_spec (b * (2 * m)) i); [lia|]. cbn [andb]. destruct (Nat.leb_spec (b * (2 * m) + m) i); [lia|]. reflexivity.
      + rewrite N1. unfold combined. set (j := i - b * (2 * m)). assert (Ej : i = b * (2 * m) + j) by lia.
        assert (Hj : j < 2 * m) by lia. rewrite Ej, block_mod by lia. rewrite <- Ej.
        destruct (Nat.leb_spec (b * (2 * m)) i); [|lia]. cbn [andb].
        destruct (Nat.ltb_spec i (b * (2 * m) + m)); destruct (Nat.ltb_spec j m); try lia; [reflexivity|].
        destruct (Nat.leb_spec (b * (2 * m) + m) i), (Nat.ltb_spec i (b * (2 * m) + m + m)); try lia. cbn [andb].
        replace (i - m - b * (2 * m)) with (j - m) by lia. reflexivity.
      + lia.
      + unfold combined. set (j := i mod (2 * m)).
        assert (Hb2 : i = i / (2 * m) * (2 * m) + j). { unfold j. pose proof (Nat.div_mod i (2 * m) ltac:(lia)). lia. }
        assert (Hj : j < 2 * m) by (apply Nat.mod_upper_bound; lia).
        assert (Hq : S b <= i / (2 * m)) by nia.
        assert (E : forall i', S b * (2 * m) <= i' -> nth i' a1 fzero = nth i' a fzero).
        { intros i' Hi'. rewrite N1. destruct (Nat.ltb_spec i' (b * (2 * m) + m)); [lia|]. rewrite andb_false_r.
          destruct (Nat.ltb_spec i' (b * (2 * m) + m + m)); [lia|]. rewrite andb_false_r. reflexivity. }
        destruct (Nat.ltb_spec j m); rewrite !E by nia; reflexivity.
  Qed.

  (** ** The levels *)
  Variables (a0 : list F) (omega : F) (L : nat).
  Hypothesis a0_len : length a0 = 2 ^ L.
  Hypothesis L_small : L < 32.
  Hypothesis root : primitive_root omega (2 ^ L).
  Definition level (s : nat) (a : list F) : Prop :=
    length a = 2 ^ L /\ forall b j, b < 2 ^ (L - s) -> j < 2 ^ s ->
      nth (b * 2 ^ s + j) a fzero =
      fsum (fun i => nth (rv (L - s) b + i * 2 ^ (L - s)) a0 fzero [*] fpow (fpow omega (2 ^ (L - s))) (i * j)) (2 ^ s).

  Let pow2_small := pow2_lt L L_small.

  Lemma level_step s a : s < L -> level s a -> level (S s) (fst (fft_pass omega (2 ^ L) (a, 2 ^ s) 0)) /\ snd (fft_pass omega (2 ^ L) (a, 2 ^ s) 0) = 2 ^ S s.
  Proof.
    intros Hs [HL HN]. unfold fft_pass. cbn [fst snd]. split; [|cbn [Nat.pow]; lia].
    set (t := L - S s). set (m := 2 ^ s) in *.
    assert (Hm : 0 < m) by apply pow2_pos.
    assert (Hn : 2 ^ L = 2 ^ t * (2 * m)).
    { unfold m. change (2 * 2 ^ s) with (2 ^ S s). rewrite <- Nat.pow_add_r. f_equal. lia. }
    assert (Hdiv : 2 ^ L / (2 * m) = 2 ^ t) by (rewrite Hn; apply Nat.div_mul; lia).
    rewrite Hdiv. rewrite (pow64 OL).
    2: { eapply Z.le_lt_trans; [|eapply Z.lt_trans; [exact pow2_small|reflexivity]]. apply inj_le. apply Nat.pow_le_mono_r; lia. }
    set (W := fpow omega (2 ^ t)).
    assert (HW : fpow W m = fneg fone).
    { unfold W, m. rewrite <- (fpow_mul OL), <- Nat.pow_add_r. apply (root_minus_one OL).
      replace (S (t + s)) with L by lia. exact root. }
    rewrite Hn.
    assert (Ha1 : length a = 2 ^ t * (2 * m)) by congruence.
    assert (Ha2 : 2 ^ t <= 0 + 2 ^ t * (2 * m)) by (rewrite <- (Nat.mul_1_r (2 ^ t)) at 1; apply Nat.mul_le_mono_l; lia).
    destruct (blocks_loop m W (2 ^ t) Hm (2 ^ t * (2 * m)) 0 a Ha1 Ha2 (Nat.le_0_l _)) as [L1 N1]. cbv zeta in L1, N1.
    change (0 * (2 * m)) with 0 in L1, N1.
    split; [exact (eq_trans L1 HL)|].
    fold t. fold W. cbn [fst]. change (2 ^ S s) with (2 * m). intros b j Hb Hj.
    assert (Hlt : b * (2 * m) + j < 2 ^ L) by (rewrite Hn; nia).
    rewrite N1 by lia. cbn [Nat.ltb Nat.leb]. unfold combined. rewrite block_mod by lia.
    assert (ELs : L - s = S t) by lia. rewrite ELs in HN.
    assert (E2 : fpow omega (2 ^ S t) = W [*] W).
    { unfold W. rewrite <- (fpow_add OL). f_equal. cbn [Nat.pow]. lia. }
    rewrite E2 in HN.
    assert (Ev : forall i, rv t b + 2 * i * 2 ^ t = rv (S t) (2 * b) + i * 2 ^ S t).
    { intro i. rewrite rv_even by exact Hb. cbn [Nat.pow]. lia. }
    assert (Eo : forall i, rv t b + (2 * i + 1) * 2 ^ t = rv (S t) (2 * b + 1) + i * 2 ^ S t).
    { intro i. rewrite rv_odd by exact Hb. cbn [Nat.pow]. lia. }
    rewrite (fsum_even_odd OL).
    assert (HWW : forall k, fpow (W [*] W) k = fpow W (2 * k)).
    { intro k. rewrite (fpow_mul OL). cbn [fpow]. f_equal. ring. }
    assert (P2m : forall k, fpow W (2 * k * m) = fone).
    { intro k. replace (2 * k * m) with (m * 2 * k) by lia. rewrite (fpow_mul OL), (fpow_mul OL), HW. cbn [fpow].
      replace (fneg fone [*] (fneg fone [*] fone)) with (@fone F) by ring. apply (fpow_one OL). }
    assert (Hbt : 2 * b + 1 < 2 ^ S t) by (cbn [Nat.pow]; lia).
    destruct (Nat.ltb_spec j m) as [Hjm|Hjm].
    - replace (b * (2 * m) + j) with (2 * b * m + j) by lia.
      replace (2 * b * m + j + m) with ((2 * b + 1) * m + j) by lia.
      rewrite (HN (2 * b) j) by lia. rewrite (HN (2 * b + 1) j) by lia. rewrite <- (fsum_mul_r OL). f_equal.
      + apply (fsum_ext (F := F)). intros i _. rewrite Ev, HWW. do 2 f_equal. lia.
      + apply (fsum_ext (F := F)). intros i _. cbv beta. rewrite Eo, HWW.
        replace ((2 * i + 1) * j) with (2 * (i * j) + j) by lia. rewrite (fpow_add OL W (2 * (i * j)) j). ring.
    - set (j' := j - m). assert (Ej : j = m + j') by lia. assert (Hj' : j' < m) by lia.
      replace (b * (2 * m) + j - m) with (2 * b * m + j') by lia.
      replace (b * (2 * m) + j) with ((2 * b + 1) * m + j') by lia.
      rewrite (HN (2 * b) j') by lia. rewrite (HN (2 * b + 1) j') by lia. rewrite <- (fsum_mul_r OL).
      match goal with |- ?x [-] ?y = ?z [+] ?u => cut (x = z /\ fneg y = u); [intros [-> <-]; ring|split] end.
      + apply (fsum_ext (F := F)). intros i _. cbv beta. rewrite Ev, HWW. f_equal.
        replace (2 * i * j) with (2 * i * m + 2 * (i * j')) by (rewrite Ej; ring). rewrite (fpow_add OL W (2 * i * m)), P2m. ring.
      + transitivity (fneg fone [*] fsum (fun i => nth (rv (S t) (2 * b + 1) + i * 2 ^ S t) a0 fzero [*] fpow (W [*] W) (i * j') [*] fpow W j') m); [ring|].
        rewrite <- (fsum_mul_l OL). apply (fsum_ext (F := F)). intros i _. cbv beta. rewrite Eo, HWW.
        replace ((2 * i + 1) * j) with (2 * i * m + (m + (2 * (i * j') + j'))) by (rewrite Ej; ring).
        rewrite (fpow_add OL W (2 * i * m)), (fpow_add OL W m), (fpow_add OL W (2 * (i * j')) j'), P2m, HW. ring.
  Qed.
  Lemma levels s : s <= L -> forall a, level 0 a ->
    level s (fst (fold_left (fft_pass omega (2 ^ L)) (seq 0 s) (a, 1))) /\ snd (fold_left (fft_pass omega (2 ^ L)) (seq 0 s) (a, 1)) = 2 ^ s.
  Proof.
    induction s as [|s IH]; intros Hs a Ha; [split; [exact Ha|reflexivity]|].
    destruct (IH ltac:(lia) a Ha) as [I1 I2]. rewrite seq_S, fold_left_app. cbn [fold_left].
    destruct (fold_left (fft_pass omega (2 ^ L)) (seq 0 s) (a, 1)) as [a' m]. cbn [fst snd] in I1, I2. subst m.
    exact (level_step s a' ltac:(lia) I1).
  Qed.
  Lemma eval_root k : fsum (fun i => nth i a0 fzero [*] fpow omega (i * k)) (2 ^ L) = eval_at a0 (fpow omega k).
  Proof.
    unfold eval_at. rewrite a0_len. apply (fsum_ext (F := F)). intros i _. unfold coeff. f_equal.
    rewrite Nat.mul_comm. apply (fpow_mul OL).
  Qed.
  Lemma serial_fft_eq : serial_fft a0 omega L = Some (map (fun k => eval_at a0 (fpow omega k)) (seq 0 (2 ^ L))).
  Proof.
    unfold serial_fft. rewrite a0_len. rewrite Z.mod_small by (split; [lia|exact pow2_small]).
    rewrite (proj2 (Nat.ltb_lt _ _) L_small).
    assert (E : Z.of_nat (2 ^ L) = (2 ^ Z.of_nat L)%Z) by (rewrite Nat2Z.inj_pow; reflexivity).
    rewrite (proj2 (Z.eqb_eq _ _) E). cbn [andb]. rewrite Nat2Z.id. f_equal.
    destruct (permute a0 L a0_len) as [P1 P2]. cbv zeta in P1, P2. set (a1 := fold_left _ (seq 0 (2 ^ L)) a0) in *.
    assert (H0 : level 0 a1).
    { split; [exact P1|]. rewrite Nat.sub_0_r. cbn [Nat.pow]. intros b j Hb Hj. assert (j = 0) by lia. subst j.
      rewrite Nat.mul_1_r, Nat.add_0_r, P2 by exact Hb. cbn [fsum Nat.mul fpow]. rewrite Nat.add_0_r. ring. }
    destruct (levels L (le_n _) a1 H0) as [[E1 E2] _]. rewrite Nat.sub_diag in E2. cbn [Nat.pow rv] in E2.
    apply (nth_ext _ _ fzero fzero); [rewrite map_length, seq_length; exact E1|].
    intros k Hk. rewrite E1 in Hk. rewrite nth_map_seq by exact Hk.
    specialize (E2 0 k ltac:(lia) Hk). cbn [Nat.mul Nat.add] in E2. rewrite E2, <- eval_root.
    apply (fsum_ext (F := F)). intros i _. rewrite Nat.mul_1_r. rewrite (fpow_1 OL). reflexivity.
  Qed.
End Fft.
