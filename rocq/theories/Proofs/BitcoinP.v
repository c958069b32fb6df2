(** The header circuit of examples/bitcoin.rs: soundness. *)
From Coq Require Import String List Bool ZArith Lia Ring Field.
From Verif Require Import Model.FieldTrait Model.Circuits Model.Num Model.Boolean Model.UInt Model.Sha256 Model.Bitcoin
  Spec.FieldLaws Spec.CircuitSpec Spec.NumSpec Spec.BoolSpec Spec.UIntSpec Spec.Sha256Spec Spec.BitcoinSpec
  Proofs.FieldGen Proofs.ZtoF Proofs.CircuitP Proofs.LcP Proofs.NumP Proofs.BoolP Proofs.UnpackP Proofs.AlwaysP
  Proofs.WordP Proofs.UIntP Proofs.UIntArithP Proofs.Sha256P.
Import ListNotations.
Open Scope Z_scope. Open Scope list_scope.
Local Notation length := List.length.

(** Bytes of bits *)
Lemma bytes_of_map {A} n : forall l : list A, bytes_of n l = map (fun i => firstn 8 (skipn (8 * i) l)) (seq 0 n).
Proof.
  induction n as [|n IH]; intro l; [reflexivity|]. cbn [bytes_of seq map]. f_equal.
  rewrite IH, <- seq_shift, map_map. apply map_ext. intro i. f_equal.
  replace (8 * S i)%nat with (8 + 8 * i)%nat by lia. revert l. generalize (8 * i)%nat as m.
  intros m l. do 8 (destruct l as [|? l]; [destruct m; reflexivity|]). reflexivity.
Qed.
Lemma flip_reverse {A} (l : list A) n : length l = (8 * n)%nat -> flip_bytes l = reverse_bytes l.
Proof.
  intro E. unfold flip_bytes, reverse_bytes, Sha256.chunks. rewrite bytes_of_map, E.
  replace ((8 * n + (8 - 1)) / 8)%nat with n.
  - replace (8 * n / 8)%nat with n; [reflexivity|]. rewrite Nat.mul_comm, Nat.div_mul by discriminate. reflexivity.
  - apply (Nat.div_unique _ _ _ 7); lia.
Qed.
Lemma F2_concat_map {A B} (R : A -> B -> Prop) (l : list A) (l' : list B) (is_ : list nat) :
  Forall2 R l l' -> Forall2 R (flat_map (@rev A) (map (fun i => firstn 8 (skipn (8 * i) l)) is_))
                              (flat_map (@rev B) (map (fun i => firstn 8 (skipn (8 * i) l')) is_)).
Proof.
  intro H. induction is_ as [|i is_ IH]; [constructor|]. cbn [map flat_map]. apply Forall2_app; [|exact IH].
  apply F2_rev, F2_firstn, F2_skipn, H.
Qed.
Lemma F2_flip {A B} (R : A -> B -> Prop) l l' : Forall2 R l l' -> Forall2 R (flip_bytes l) (flip_bytes l').
Proof.
  intro H. unfold flip_bytes, Sha256.chunks. rewrite (F2_length _ _ _ H). apply F2_concat_map, H.
Qed.
Lemma digest_length H : length H = 8%nat -> length (digest_bits H) = 256%nat.
Proof.
  intro E. do 9 (destruct H as [|? H]; [try discriminate E|]); [reflexivity|discriminate E].
Qed.
Lemma hash_block_length H b : length (hash_block H b) = 8%nat.
Proof.
  unfold hash_block. match goal with |- context [fold_left ?f ?l ?a] => generalize (fold_left f l a) end.
  intros [[[[[[[? ?] ?] ?] ?] ?] ?] ?]. reflexivity.
Qed.
Lemma fold_length {A B} (f : list A -> B -> list A) n (Hf : forall H b, length (f H b) = n) bs :
  forall H, length H = n -> length (fold_left f bs H) = n.
Proof. induction bs as [|b bs IH]; intros H E; [exact E|]. apply IH, Hf. Qed.
Lemma H0_length : length H0 = 8%nat.
Proof. unfold H0. rewrite map_length, firstn_length. vm_compute. reflexivity. Qed.
Lemma SHA256_length m : length (SHA256 m) = 256%nat.
Proof. unfold SHA256. apply digest_length, (fold_length hash_block 8 hash_block_length), H0_length. Qed.
Lemma reverse_length {A} (l : list A) n : length l = (8 * n)%nat -> length (reverse_bytes l) = (8 * n)%nat.
Proof.
  intro E. unfold reverse_bytes. rewrite E. replace (8 * n / 8)%nat with n by (rewrite Nat.mul_comm, Nat.div_mul by discriminate; reflexivity).
  revert l E. induction n as [|n IH]; intros l E; [reflexivity|]. cbn [bytes_of flat_map]. rewrite app_length, rev_length, firstn_length, IH.
  - lia.
  - rewrite skipn_length. lia.
Qed.

Lemma five_bits b0 b1 b2 b3 b4 : bits_val [b0; b1; b2; b3; b4; false; false; false] < 32.
Proof. destruct b0, b1, b2, b3, b4; reflexivity. Qed.
Lemma five_powers s b0 b1 b2 b3 b4 :
  let sel (b : bool) := if b then 256 else 1 in
  let n4 := s * s * sel b4 in let n3 := n4 * n4 * sel b3 in let n2 := n3 * n3 * sel b2 in let n1 := n2 * n2 * sel b1 in
  n1 * n1 * sel b0 = s ^ 32 * 256 ^ bits_val [b0; b1; b2; b3; b4; false; false; false].
Proof. intros. subst n1 n2 n3 n4 sel. destruct b0, b1, b2, b3, b4; match goal with |- context [bits_val ?l] => let e := eval vm_compute in (bits_val l) in change (bits_val l) with e end; ring. Qed.

Fixpoint limbs_val (zs : list Z) : Z := match zs with [] => 0 | z :: zs => z + 2 ^ 64 * limbs_val zs end.
Lemma bits_limbs bs : length bs = 256%nat ->
  bits_val bs = limbs_val [bits_val (firstn 64 (skipn (64 * 0) bs)); bits_val (firstn 64 (skipn (64 * 1) bs));
                           bits_val (firstn 64 (skipn (64 * 2) bs)); bits_val (firstn 64 (skipn (64 * 3) bs))].
Proof.
  intro E. cbn [limbs_val].
  assert (S : forall n l, (64 + n)%nat = length l -> bits_val l = bits_val (firstn 64 l) + 2 ^ 64 * bits_val (skipn 64 l)).
  { intros n l HL. rewrite <- (firstn_skipn 64 l) at 1. rewrite bits_val_app, firstn_length. f_equal. f_equal. f_equal. lia. }
  assert (K : forall a (l : list bool), skipn 64 (skipn a l) = skipn (a + 64) l) by (intros a; induction a as [|a IH]; intros [|x l]; try reflexivity; apply IH).
  rewrite (S 192%nat bs) by lia. rewrite (S 128%nat (skipn 64 bs)) by (rewrite skipn_length; lia). rewrite K.
  rewrite (S 64%nat (skipn (64 + 64) bs)) by (rewrite skipn_length; lia). rewrite K.
  cbn [Nat.mul Nat.add]. rewrite (firstn_all2 (skipn 192 bs)) by (rewrite skipn_length; lia). cbn [skipn]. lia.
Qed.

Section Sound.
  Context {F : Field} {p : Z} {v : F -> Z} (FL : FieldLaws F p v) (one : Var).
  Let OL : OpsLaws F p v := fl_ops _ _ _ FL.
  Add Field Ff : (ffield OL).
  Variable w : assignment F.
  Hypothesis w_one : w one = fone.

  Lemma sub_zero (a b : F) : fsub a b = fzero -> a = b.
  Proof. apply (fsub_zero OL). Qed.
  Lemma p_large : 2 ^ 254 < p. Proof. apply (fl_size _ _ _ FL). Qed.
  Lemma small_inj a b : 0 <= a < 2 ^ 254 -> 0 <= b < 2 ^ 254 -> fz a = fz b :> F -> a = b.
  Proof. intros Ha Hb. pose proof p_large. apply (fz_inj OL); lia. Qed.

  Lemma slice_sound {A} (l : list A) a b : sound w (slice l a b) (fun r => (b <= length l)%nat /\ r = firstn (b - a) (skipn a l)).
  Proof. unfold slice. sstep. sstep. split; [apply Nat.leb_le; assumption|reflexivity]. Qed.
  Lemma index_sound {A} (l : list A) i : sound w (index l i) (fun x => nth_error l i = Some x).
  Proof. unfold index, unwrap. destruct (nth_error l i); [sstep; reflexivity|sstep]. Qed.

  Lemma lc_from_bits_val bits bs : Forall2 (bool_is w) bits bs -> lc_val w (lc_from_bits one bits) = fz (bits_val bs).
  Proof.
    intro H. unfold lc_from_bits. rewrite (add_bits_lc_val FL one w w_one _ _ H lc_zero COne 1) by reflexivity.
    rewrite lc_val_zero, Z.mul_1_l. ring.
  Qed.
  Lemma num_lc_val (n : AllocatedNum F) : lc_val w (num_lc n) = num_val w n.
  Proof. unfold num_lc, num_val. apply (lc_val_from OL). Qed.
  Lemma bits_to_num_sound bits bs : Forall2 (bool_is w) bits bs ->
    sound w (bits_to_num one bits) (fun n => num_val w n = fz (bits_val bs)).
  Proof.
    intro H. unfold bits_to_num. cbv zeta. eapply sound_bind; [apply sound_namespace; apply (num_alloc_sound w)|].
    intros n _. sstep. sstep. rewrite (lc_val_sub_lc OL), num_lc_val, (lc_from_bits_val _ _ H) in H0. symmetry. apply sub_zero. assumption.
  Qed.
  Lemma equality_lcs_val : forall a b xs ys la lb c k, length a = length b ->
    Forall2 (bool_is w) a xs -> Forall2 (bool_is w) b ys -> coeff_val c = fz k ->
    let '(la', lb') := equality_lcs one la lb c a b in
    lc_val w la' = fadd (lc_val w la) (fz (k * bits_val xs)) /\ lc_val w lb' = fadd (lc_val w lb) (fz (k * bits_val ys)).
  Proof.
    induction a as [|a0 a IH]; intros [|b0 b] xs ys la lb c k HL HA HB HC; try discriminate HL; inversion HA; subst; inversion HB; subst; cbn [equality_lcs bits_val].
    - rewrite Z.mul_0_r, fz_0. split; ring.
    - match goal with |- let '(la', lb') := equality_lcs one ?la1 ?lb1 ?c1 a b in _ =>
        match goal with H1 : Forall2 (bool_is w) a ?xs1, H2 : Forall2 (bool_is w) b ?ys1 |- _ =>
        pose proof (IH b xs1 ys1 la1 lb1 c1 (2 * k) ltac:(now injection HL) H1 H2 ltac:(rewrite (coeff_double_val OL), HC; apply (fz_double OL))) as IH' end end.
      destruct (equality_lcs _ _ _ _ _ _) as [la' lb']. destruct IH' as [I1 I2]. rewrite I1, I2.
      rewrite !(lc_val_add_lc OL). erewrite !(bool_lc_val FL one w w_one) by eassumption. rewrite HC, !of_bit_fz.
      rewrite !Z.mul_add_distr_l, !(fz_add OL), !(fz_mul OL). split; ring.
  Qed.
  Lemma enforce_equality_sound a b xs ys : Forall2 (bool_is w) a xs -> Forall2 (bool_is w) b ys ->
    sound w (enforce_equality one a b) (fun _ => bits_val xs mod p = bits_val ys mod p).
  Proof.
    intros HA HB. unfold enforce_equality. sstep. apply Nat.eqb_eq in H.
    pose proof (equality_lcs_val a b xs ys lc_zero lc_zero COne 1 H HA HB eq_refl) as E.
    destruct (equality_lcs _ _ _ _ _ _) as [la lb]. destruct E as [E1 E2]. apply sound_enforce. intro HE.
    rewrite (lc_val_sub_lc OL), E1, E2, lc_val_zero, !Z.mul_1_l in HE. apply (fz_eq OL). apply sub_zero in HE.
    replace (fz (bits_val xs)) with (fadd fzero (fz (bits_val xs)) : F) by ring. rewrite HE. ring.
  Qed.
  Lemma sha256d_sound data bs n : length data = (8 * n)%nat -> Forall2 (bool_is w) data bs ->
    sound w (sha256d one data) (fun o => Forall2 (bool_is w) o (double_sha256 bs)).
  Proof.
    intros HL H. unfold sha256d, double_sha256.
    eapply sound_bind; [apply sound_namespace, (sha256_sound FL one w w_one), F2_flip, H|]. intros mid Hm.
    eapply sound_bind; [apply sound_namespace, (sha256_sound FL one w w_one), Hm|]. intros r Hr. sstep.
    apply (F2_flip) in Hr. rewrite <- (flip_reverse bs n) by (rewrite <- HL; symmetry; exact (F2_length _ _ _ H)).
    rewrite <- (flip_reverse _ 32) by apply SHA256_length. exact Hr.
  Qed.

  (** The target *)
  Lemma bytes_to_bits_sound data len : sound w (bytes_to_bits data len) (fun o => length o = (8 * len)%nat /\ exists bs, Forall2 (bool_is w) o bs).
  Proof.
    unfold bytes_to_bits. eapply sound_weaken.
    - apply (sound_mapM w _ (fun _ b => exists x, bool_is w b x)). intros [i j] _.
      eapply sound_bind; [apply sound_namespace, (bit_alloc_sound FL)|]. intros b [x Hb]. sstep. exists x. exact Hb.
    - intros o H. split.
      + rewrite <- (F2_length _ _ _ H), prod_length, !seq_length. lia.
      + apply Forall2_exists. clear - H. induction H; constructor; auto.
  Qed.
  Lemma lc1_zero b x : bool_is w b x -> lc_val w (bool_lc b one COne) = fzero -> x = false.
  Proof.
    intros H E. rewrite (bool_lc1_val FL one w w_one b x H) in E. apply (of_bit_inj FL). exact E.
  Qed.
  Lemma pow_step_sound base pow_size bit x : num_val w base = fz 256 -> bool_is w bit x ->
    sound w (pow_step one base pow_size bit) (fun n => num_val w n = fmul (fmul (num_val w pow_size) (num_val w pow_size)) (fz (if x then 256 else 1))).
  Proof.
    intros HB Hb. unfold pow_step. sstep.
    eapply sound_bind; [apply sound_namespace, (num_mul_sound FL one w)|]. intros sq Hsq.
    eapply sound_bind; [apply sound_namespace, (num_mul_sound FL one w)|]. intros m Hm.
    eapply sound_bind; [apply sound_namespace, (num_alloc_sound w)|]. intros nx _.
    repeat sstep. rewrite !(lc_val_sub_v OL), !(lc_val_sub_lc OL), !num_lc_val in *.
    rewrite (bool_lc1_val FL one w w_one _ _ Hb) in *.
    repeat match goal with H : fsub _ _ = fzero |- _ => apply sub_zero in H end.
    assert (Hsq' : num_val w sq = fmul (num_val w pow_size) (num_val w pow_size)) by apply Hsq.
    assert (Hm' : num_val w m = fmul (num_val w sq) (num_val w base)) by apply Hm.
    rewrite <- Hsq'. rewrite HB in Hm'.
    match goal with H : fsub (num_val w nx) _ = w ?c, H1 : fmul (w ?a) (w ?b) = w ?c, H2 : of_bit x = w ?a, H3 : fsub (num_val w m) _ = w ?b |- _ =>
      rewrite <- H, <- H2, <- H3, Hm' in H1; rename H1 into HH; clear - HH OL FL end.
    destruct x; cbn [of_bit] in HH.
    - transitivity (fadd (fsub (num_val w nx) (num_val w sq)) (num_val w sq)); [ring|rewrite <- HH; ring].
    - rewrite fz_1. transitivity (fadd (fsub (num_val w nx) (num_val w sq)) (num_val w sq)); [ring|rewrite <- HH; ring].
  Qed.

  Lemma from_u64_256 n : 0 <= n < 2 ^ 64 -> f_from_u64 n = fz n :> F.
  Proof. apply (from_u64_fz FL). Qed.
  (** 256^size, up to the start of the exponentiation *)
  Lemma unpack_power_sound self bs : Forall2 (bool_is w) (cb_size_bits self) bs ->
    sound w (unpack_power one self) (fun n => bits_val bs < 32 /\ exists s, 0 <= s < p /\ num_val w n = fz (s ^ 32 * 256 ^ bits_val bs)).
  Proof.
    intro H. unfold unpack_power.
    eapply sound_bind; [apply sound_namespace, (num_alloc_sound w)|]. intros base _.
    sstep. sstep. apply Nat.eqb_eq in H1. rewrite (lc_val_sub_cv OL), num_lc_val, w_one in H0. cbn [coeff_val] in H0.
    rewrite from_u64_256 in H0 by lia.
    assert (HB : num_val w base = fz 256). { apply sub_zero in H0. rewrite H0. ring. } clear H0.
    destruct (cb_size_bits self) as [|c0 [|c1 [|c2 [|c3 [|c4 [|c5 [|c6 [|c7 [|? ?]]]]]]]]]; try discriminate H1. clear H1.
    repeat match goal with H : Forall2 _ (_ :: _) _ |- _ => inversion H; subst; clear H end.
    match goal with H : Forall2 _ [] _ |- _ => inversion H; subst; clear H end.
    cbn [index nth_error unwrap].
    sstep. sstep. sstep. sstep. sstep. sstep.
    repeat match goal with H : lc_val w (bool_lc ?c one COne) = fzero, Hb : bool_is w ?c ?x |- _ => apply (lc1_zero _ _ Hb) in H; subst x end.
    eapply sound_bind; [apply sound_namespace, (num_alloc_sound w)|]. intros st _.
    cbn [rev app skipn foldM].
    eapply sound_bind; [apply pow_step_sound; eassumption|]. intros n4 E4.
    eapply sound_bind; [apply pow_step_sound; eassumption|]. intros n3 E3.
    eapply sound_bind; [apply pow_step_sound; eassumption|]. intros n2 E2.
    eapply sound_bind; [apply pow_step_sound; eassumption|]. intros n1 E1.
    eapply sound_bind; [apply pow_step_sound; eassumption|]. intros n0 E0. sstep.
    split; [apply five_bits|]. exists (v (num_val w st)). split; [apply (ol_range _ _ _ OL)|].
    rewrite <- five_powers. cbv zeta. rewrite !(fz_mul OL), !(fz_v OL). rewrite E0, E1, E2, E3, E4. reflexivity.
  Qed.
  Lemma target_algebra (a b c a0 b0 c0 m t k q : F) : fmul a b = c -> fmul a0 b0 = c0 -> m = a -> t = c -> b = a0 ->
    b0 = fmul k fone -> q = c0 -> fmul t k = fmul m q.
  Proof. intros <- <- -> -> -> -> ->. ring. Qed.
  Lemma unpack_sound self ms ss sg : Forall2 (bool_is w) (cb_mantissa_bits self) ms -> Forall2 (bool_is w) (cb_size_bits self) ss ->
    bool_is w (cb_mantissa_sign_bit self) sg ->
    sound w (unpack one self) (fun '(target, _) => sg = false /\ bits_val ss < 32 /\ length target = 256%nat /\
      exists ts s, Forall2 (bool_is w) target ts /\ 0 <= s < p /\
        (bits_val ts * 256 ^ 3) mod p = (bits_val ms * (s ^ 32 * 256 ^ bits_val ss)) mod p).
  Proof.
    intros HM HS HG. unfold unpack.
    eapply (sound_bind _ _ _ (fun '(target, _) => sg = false /\ length target = 256%nat /\ exists ts, Forall2 (bool_is w) target ts)).
    - unfold unpack_target. sstep. apply (lc1_zero _ _ HG) in H.
      eapply sound_bind.
      { instantiate (1 := fun _ => True). destruct (cb_mantissa self), (cb_size self); repeat sstep; exact I. }
      intros tv _. eapply sound_bind; [apply sound_namespace, bytes_to_bits_sound|]. intros t [HL HT]. sstep. auto.
    - intros [target tv] [HG' [HL [ts HT]]]. eapply sound_bind; [apply (unpack_power_sound self ss HS)|].
      intros pw [H32 [s [Hs Hpw]]]. cbv zeta. sstep. sstep. repeat sstep.
      repeat match goal with H : context [lc_val] |- _ => revert H end.
      rewrite !(lc_val_sub_v OL), !(lc_val_sub_cv OL), !(lc_val_from OL), !num_lc_val.
      rewrite (lc_from_bits_val _ _ HM), (lc_from_bits_val _ _ HT), Hpw, w_one. cbn [coeff_val].
      rewrite from_u64_256 by lia. intros.
      repeat match goal with H : fsub _ _ = fzero |- _ => apply sub_zero in H end.
      split; [exact HG'|]. split; [exact H32|]. split; [exact HL|]. exists ts, s. split; [exact HT|]. split; [exact Hs|].
      replace (256 ^ 3) with 16777216 by reflexivity. apply (fz_eq OL). rewrite !(fz_mul OL (bits_val _)).
      exact (target_algebra _ _ _ _ _ _ _ _ _ _ H H0 H1 H2 H3 H4 H5).
  Qed.

  (** 256-bit products *)
  Definition ok64 : UInt -> Z -> Prop := word_ok w 64.
  Lemma bits_to_word n bits bs : length bits = n -> Forall2 (bool_is w) bits bs -> sound w (u_from_bits n bits) (fun u => word_ok w n u (bits_val bs)).
  Proof. intros HL H. eapply sound_weaken; [apply (u_from_bits_sound w n _ _ H)|]. intros u [_ Hu]. exact Hu. Qed.
  Lemma four_limbs_sound bits bs : length bits = 256%nat -> Forall2 (bool_is w) bits bs ->
    sound w (four_limbs bits) (fun us => exists z0 z1 z2 z3, Forall2 ok64 us [z0; z1; z2; z3] /\ bits_val bs = limbs_val [z0; z1; z2; z3]).
  Proof.
    intros HL H. unfold four_limbs. eapply sound_weaken.
    - apply (sound_mapM w _ (fun i u => ok64 u (bits_val (firstn 64 (skipn (64 * i) bs))))). intros i Hi. apply in_seq in Hi.
      eapply sound_bind; [apply slice_sound|]. intros r [_ ->].
      replace (64 * i + 64 - 64 * i)%nat with 64%nat by lia. apply bits_to_word.
      + rewrite firstn_length, skipn_length. lia.
      + apply F2_firstn, F2_skipn, H.
    - cbn [seq]. intros us HU. repeat match goal with H : Forall2 _ (_ :: _) _ |- _ => inversion H; subst; clear H end.
      match goal with H : Forall2 _ [] _ |- _ => inversion H; subst; clear H end.
      eexists _, _, _, _. split; [repeat (constructor; [eassumption|]); constructor|].
      apply F2_length in H. rewrite HL in H. symmetry in H. apply bits_limbs, H.
  Qed.
  Lemma F2_nth_error {A} (R : A -> Z -> Prop) l zs i x : Forall2 R l zs -> nth_error l i = Some x -> R x (nth i zs 0).
  Proof.
    intro H. revert i. induction H as [|y z l zs Hy H IH]; intros [|i] E; try discriminate E; cbn in *.
    - injection E as <-. exact Hy.
    - apply IH, E.
  Qed.
  Lemma F2_set_nth {A} (R : A -> Z -> Prop) l zs i x z : Forall2 R l zs -> R x z -> Forall2 R (set_nth l i x) (set_nth zs i z).
  Proof.
    intros H Hx. unfold set_nth. apply Forall2_app; [apply F2_firstn, H|]. constructor; [exact Hx|]. apply F2_skipn, H.
  Qed.
  Lemma mul_inner_sound ts xs ws k zt zx zw zk j i : Forall2 ok64 ts zt -> Forall2 ok64 xs zx -> Forall2 ok64 ws zw -> ok64 k zk ->
    sound w (mul_inner one ts xs j (ws, k) i) (fun r => exists zl zh, Forall2 ok64 (fst r) (set_nth zw (i + j) zl) /\ ok64 (snd r) zh /\
      zl + 2 ^ 64 * zh = nth i zt 0 * nth j zx 0 + nth (i + j) zw 0 + zk).
  Proof.
    intros HT HX HW HK. unfold mul_inner.
    eapply sound_bind; [apply index_sound|]. intros t Et. eapply sound_bind; [apply index_sound|]. intros x Ex.
    eapply sound_bind; [apply index_sound|]. intros wij Ew.
    eapply sound_bind; [apply sound_namespace, (mul_acc2_sound FL one w w_one);
      [exact (F2_nth_error _ _ _ _ _ HT Et)|exact (F2_nth_error _ _ _ _ _ HX Ex)|exact (F2_nth_error _ _ _ _ _ HW Ew)|exact HK]|].
    intros [lo hi] (zl & zh & Hl & Hh & E). apply sound_ret. exists zl, zh. cbn [fst snd] in *.
    split; [apply F2_set_nth; assumption|]. split; [exact Hh|exact E].
  Qed.
  Lemma mul_outer_sound ts xs ws t0 t1 t2 t3 x0 x1 x2 x3 zw j :
    Forall2 ok64 ts [t0; t1; t2; t3] -> Forall2 ok64 xs [x0; x1; x2; x3] -> Forall2 ok64 ws zw -> length zw = 8%nat ->
    In j [0; 1; 2; 3]%nat -> (forall i, (j + 4 <= i)%nat -> nth i zw 0 = 0) ->
    sound w (mul_outer one ts xs ws j) (fun ws' => exists zw', Forall2 ok64 ws' zw' /\ length zw' = 8%nat /\
      (forall i, (j + 5 <= i)%nat -> nth i zw' 0 = 0) /\
      limbs_val zw' = limbs_val zw + 2 ^ (64 * Z.of_nat j) * (nth j [x0; x1; x2; x3] 0 * limbs_val [t0; t1; t2; t3])).
  Proof.
    intros HT HX HW HL Hj HZ.
    assert (H0 : ok64 (u_constant 64 0) 0) by (apply word_has_ok, u_constant_has; split; [lia|reflexivity]).
    unfold mul_outer. cbn [seq foldM].
    eapply sound_bind.
    { eapply sound_bind; [exact (mul_inner_sound _ _ _ _ _ _ _ _ j 0 HT HX HW H0)|]. intros [ws1 k1] (l1 & h1 & W1 & K1 & Q1). cbn [fst snd] in W1, K1.
      eapply sound_bind; [exact (mul_inner_sound _ _ _ _ _ _ _ _ j 1 HT HX W1 K1)|]. intros [ws2 k2] (l2 & h2 & W2 & K2 & Q2). cbn [fst snd] in W2, K2.
      eapply sound_bind; [exact (mul_inner_sound _ _ _ _ _ _ _ _ j 2 HT HX W2 K2)|]. intros [ws3 k3] (l3 & h3 & W3 & K3 & Q3). cbn [fst snd] in W3, K3.
      eapply sound_bind; [exact (mul_inner_sound _ _ _ _ _ _ _ _ j 3 HT HX W3 K3)|]. intros [ws4 k4] (l4 & h4 & W4 & K4 & Q4). cbn [fst snd] in W4, K4.
      apply sound_ret.
      refine (_ : (fun r => exists l1 h1 l2 h2 l3 h3 l4 h4,
        Forall2 ok64 (fst r) (set_nth (set_nth (set_nth (set_nth zw (0 + j) l1) (1 + j) l2) (2 + j) l3) (3 + j) l4) /\ ok64 (snd r) h4 /\
        l1 + 2 ^ 64 * h1 = t0 * nth j [x0; x1; x2; x3] 0 + nth (0 + j) zw 0 + 0 /\
        l2 + 2 ^ 64 * h2 = t1 * nth j [x0; x1; x2; x3] 0 + nth (1 + j) (set_nth zw (0 + j) l1) 0 + h1 /\
        l3 + 2 ^ 64 * h3 = t2 * nth j [x0; x1; x2; x3] 0 + nth (2 + j) (set_nth (set_nth zw (0 + j) l1) (1 + j) l2) 0 + h2 /\
        l4 + 2 ^ 64 * h4 = t3 * nth j [x0; x1; x2; x3] 0 + nth (3 + j) (set_nth (set_nth (set_nth zw (0 + j) l1) (1 + j) l2) (2 + j) l3) 0 + h3) (ws4, k4)).
      exists l1, h1, l2, h2, l3, h3, l4, h4. exact (conj W4 (conj K4 (conj Q1 (conj Q2 (conj Q3 Q4))))). }
    intros [ws' k] (l1 & h1 & l2 & h2 & l3 & h3 & l4 & h4 & HW' & HK & Q1 & Q2 & Q3 & Q4). cbn [fst snd] in HW', HK.
    apply sound_ret. eexists. split; [apply F2_set_nth; [exact HW'|exact HK]|].
    clear HW' HK HW HT HX H0.
    destruct zw as [|w0 [|w1 [|w2 [|w3 [|w4 [|w5 [|w6 [|w7 [|? ?]]]]]]]]]; try discriminate HL.
    destruct Hj as [<-|[<-|[<-|[<-|[]]]]]; cbn [Nat.add set_nth firstn skipn app nth limbs_val length] in *.
    all: split; [reflexivity|]; split;
      [intros i Hi; generalize (HZ i ltac:(lia)); do 8 (destruct i as [|i]; [first [exfalso; lia|exact (fun h => h)]|]); exact (fun h => h)|].
    1: generalize (HZ 4%nat ltac:(lia)). 2: generalize (HZ 5%nat ltac:(lia)). 3: generalize (HZ 6%nat ltac:(lia)). 4: generalize (HZ 7%nat ltac:(lia)).
    all: cbn [nth]; intro Hz; clear HZ; cbn [Z.of_nat Pos.of_succ_nat Pos.succ Z.mul Pos.mul].
    1: replace (2 ^ 0) with 1 by reflexivity. 3: replace (2 ^ 128) with (2 ^ 64 * 2 ^ 64) by reflexivity.
    4: replace (2 ^ 192) with (2 ^ 64 * (2 ^ 64 * 2 ^ 64)) by reflexivity.
    all: generalize dependent (2 ^ 64); intros B P4 P3 P2 P1.
    all: apply (f_equal (fun z => z - B * h4)) in P4; apply (f_equal (fun z => z - B * h3)) in P3;
      apply (f_equal (fun z => z - B * h2)) in P2; apply (f_equal (fun z => z - B * h1)) in P1.
    all: rewrite Z.add_simpl_r in P1, P2, P3, P4; subst; ring.
  Qed.
  Lemma mul_limbs_sound ts xs rs t0 t1 t2 t3 x0 x1 x2 x3 r0 r1 r2 r3 :
    Forall2 ok64 ts [t0; t1; t2; t3] -> Forall2 ok64 xs [x0; x1; x2; x3] -> Forall2 ok64 rs [r0; r1; r2; r3] ->
    sound w (mul_limbs one ts xs (rs ++ repeat (u_constant 64 0) 4)) (fun ws => exists zw, Forall2 ok64 ws zw /\ length zw = 8%nat /\
      limbs_val zw = limbs_val [r0; r1; r2; r3] + limbs_val [x0; x1; x2; x3] * limbs_val [t0; t1; t2; t3]).
  Proof.
    intros HT HX HR. unfold mul_limbs. apply sound_namespace. cbn [seq foldM].
    assert (H0 : ok64 (u_constant 64 0) 0) by (apply word_has_ok, u_constant_has; split; [lia|reflexivity]).
    assert (W0 : Forall2 ok64 (rs ++ repeat (u_constant 64 0) 4) ([r0; r1; r2; r3] ++ [0; 0; 0; 0]))
      by (apply Forall2_app; [exact HR|repeat (constructor; [exact H0|]); constructor]).
    eapply sound_bind; [refine (mul_outer_sound _ _ _ _ _ _ _ _ _ _ _ _ 0 HT HX W0 eq_refl _ _)|].
    { cbn; auto. } { intros i Hi. do 8 (destruct i as [|i]; [first [exfalso; lia|reflexivity]|]). destruct i; reflexivity. }
    intros w1 (z1 & F1 & L1 & Z1 & V1).
    eapply sound_bind; [refine (mul_outer_sound _ _ _ _ _ _ _ _ _ _ _ _ 1 HT HX F1 L1 _ Z1)|]. { cbn; auto. }
    intros w2 (z2 & F2 & L2 & Z2 & V2).
    eapply sound_bind; [refine (mul_outer_sound _ _ _ _ _ _ _ _ _ _ _ _ 2 HT HX F2 L2 _ Z2)|]. { cbn; auto. }
    intros w3 (z3 & F3 & L3 & Z3 & V3).
    eapply sound_bind; [refine (mul_outer_sound _ _ _ _ _ _ _ _ _ _ _ _ 3 HT HX F3 L3 _ Z3)|]. { cbn; auto. }
    intros w4 (z4 & F4 & L4 & Z4 & V4). apply sound_ret. exists z4. split; [exact F4|]. split; [exact L4|].
    rewrite V4, V3, V2, V1. cbn [app limbs_val nth Z.of_nat Pos.of_succ_nat Pos.succ Z.mul Pos.mul].
    replace (2 ^ 0) with 1 by reflexivity. replace (2 ^ 128) with (2 ^ 64 * 2 ^ 64) by reflexivity.
    replace (2 ^ 192) with (2 ^ 64 * (2 ^ 64 * 2 ^ 64)) by reflexivity.
    generalize (2 ^ 64). intro B. ring.
  Qed.

  (** The heights and the hash of the previous header *)
  Lemma header_links_sound prev_height height prev_header header zh zh' hs hs' : (length prev_header = 8 * 80)%nat ->
    num_val w prev_height = fz zh -> num_val w height = fz zh' -> 0 <= zh < 2 ^ 32 -> 0 <= zh' < 2 ^ 32 ->
    Forall2 (bool_is w) prev_header hs -> Forall2 (bool_is w) header hs' ->
    sound w (header_links one prev_height height prev_header header) (fun _ => zh' = zh + 1 /\
      bits_val (prev_hash_of hs') mod p = bits_val (double_sha256 hs) mod p).
  Proof.
    intros HL E E' R R' H H'. unfold header_links. sstep.
    rewrite (lc_val_sub_v OL), (lc_val_sub_lc OL), !num_lc_val, E, E', w_one in H0. apply sub_zero in H0.
    assert (Hh : zh' = zh + 1).
    { apply small_inj; [lia|lia|]. rewrite (fz_add OL), fz_1, <- H0. ring. }
    eapply sound_bind; [apply sound_namespace, (sha256d_sound _ _ 80 HL H)|]. intros o Ho.
    eapply sound_bind; [apply slice_sound|]. intros f [_ ->].
    eapply sound_bind; [apply sound_namespace, enforce_equality_sound; [apply F2_firstn, F2_skipn, H'|exact Ho]|]. intros ? Hq. cbv beta in Hq.
    eapply sound_bind; [apply sound_namespace; instantiate (1 := fun _ => True); intros ? ? _ _; exact I|]. intros ? _.
    apply sound_ret. split; [exact Hh|]. exact Hq.
  Qed.
  Lemma ok64_zero u z : ok64 u z -> lc_val w (u64_lc one u) = fzero -> z = 0.
  Proof.
    intros [[R H] _] E. rewrite (u64_lc_val FL one w w_one u z (conj R H)), <- fz_0 in E. unfold in_word in R.
    apply small_inj; [lia|lia|exact E].
  Qed.
  Lemma ok64_one u z : ok64 u z -> lc_val w (lc_sub_v (u64_lc one u) one) = fzero -> z = 1.
  Proof.
    intros [[R H] _] E. rewrite (lc_val_sub_v OL), (u64_lc_val FL one w w_one u z (conj R H)), w_one, <- fz_1 in E. unfold in_word in R.
    apply small_inj; [lia|lia|apply sub_zero; exact E].
  Qed.
  Lemma fe_bits_bool bits bs : Forall2 (bit_is w) bits bs -> Forall2 (bool_is w) (map Is bits) bs.
  Proof. induction 1; constructor; auto. Qed.
  Lemma from_target_sound f tv : sound w (from_target (F := F) f tv) (fun _ => True).
  Proof. intros ? ? _ _. exact I. Qed.
  (** The work: target' * work + rest = 2^256, target' being the target with its lowest bit set *)
  Lemma header_work_sound target tv ts : length target = 256%nat -> Forall2 (bool_is w) target ts ->
    sound w (header_work one target tv) (fun n => exists work rest, num_val w n = fz work /\ 0 <= work < 2 ^ 256 /\ 0 <= rest < 2 ^ 256 /\
      (2 * (bits_val ts / 2) + 1) * work + rest = 2 ^ 256).
  Proof.
    intros HL HT. unfold header_work. cbv zeta.
    destruct target as [|b0 target]; [discriminate HL|]. inversion HT as [|? x0 ? ts' Hb0 HT']; subst. cbn [skipn].
    assert (HP : Forall2 (bool_is w) (Constant true :: target) (true :: ts')) by (constructor; [reflexivity|exact HT']).
    eapply sound_bind; [exact (four_limbs_sound (Constant true :: target) _ HL HP)|]. intros tl (t0 & t1 & t2 & t3 & FT & VT).
    eapply sound_bind; [apply from_target_sound|]. intros bv _.
    eapply sound_bind; [apply sound_namespace, (num_alloc_sound w)|]. intros bw _.
    eapply sound_bind; [apply sound_namespace, (unpack_fe_sound FL one w w_one)|]. intros wb (ws & LW & BW & VW).
    eapply sound_bind; [apply (four_limbs_sound (map Is wb) ws); [rewrite map_length; exact LW|apply fe_bits_bool, BW]|].
    intros xl (x0' & x1 & x2 & x3 & FX & VX).
    eapply sound_bind; [apply from_target_sound|]. intros rv _.
    eapply sound_bind; [apply sound_namespace, (num_alloc_sound w)|]. intros rn _.
    eapply sound_bind; [apply sound_namespace, (unpack_fe_sound FL one w w_one)|]. intros rb (rs & LR & BR & VR).
    eapply sound_bind; [apply (four_limbs_sound (map Is rb) rs); [rewrite map_length; exact LR|apply fe_bits_bool, BR]|].
    intros rl (r0 & r1 & r2 & r3 & FR & VR').
    eapply sound_bind; [apply (mul_limbs_sound _ _ _ _ _ _ _ _ _ _ _ _ _ _ _ FT FX FR)|]. intros zl (zw & FZ & LZ & VZ).
    do 8 (eapply sound_bind; [apply index_sound|]; let u := fresh "u" in let Hu := fresh "Hu" in intros u Hu; apply (F2_nth_error _ _ _ _ _ FZ) in Hu; sstep).
    apply sound_ret. exists (bits_val ws), (bits_val rs).
    split. { rewrite <- (fz_v OL (num_val w bw)). apply (fz_eq OL). rewrite VW, (n_from_val FL). apply Z.mod_small, (ol_range _ _ _ OL). }
    pose proof (bits_val_range ws) as RW. pose proof (bits_val_range rs) as RR.
    rewrite <- (F2_length _ _ _ BW), LW in RW. rewrite <- (F2_length _ _ _ BR), LR in RR.
    split; [exact RW|]. split; [exact RR|].
    rewrite <- VT, <- VX, <- VR' in VZ. apply (ok64_zero _ _ Hu) in H. apply (ok64_zero _ _ Hu0) in H0. apply (ok64_zero _ _ Hu1) in H1.
    apply (ok64_zero _ _ Hu2) in H2. apply (ok64_one _ _ Hu3) in H3. apply (ok64_zero _ _ Hu4) in H4. apply (ok64_zero _ _ Hu5) in H5. apply (ok64_zero _ _ Hu6) in H6.
    clear - VZ LZ H H0 H1 H2 H3 H4 H5 H6.
    destruct zw as [|w0 [|w1 [|w2 [|w3 [|w4 [|w5 [|w6 [|w7 [|? ?]]]]]]]]]; try discriminate LZ. cbn [nth] in *. subst.
    assert (E : bits_val (true :: ts') = 2 * (bits_val (x0 :: ts') / 2) + 1).
    { cbn [bits_val]. destruct x0; cbn [Z.b2z]; rewrite (Z.mul_comm 2 (bits_val ts')).
      - rewrite Z.div_add by lia. change (1 / 2) with 0. lia.
      - rewrite Z.div_add by lia. change (0 / 2) with 0. lia. }
    rewrite <- E. assert (E' : limbs_val [0; 0; 0; 0; 1; 0; 0; 0] = 2 ^ 256) by reflexivity.
    rewrite <- E', VZ. ring.
  Qed.

  Lemma map_Is_sound (bits : list AllocatedBit) bs : Forall2 (bit_is w) bits bs -> Forall2 (bool_is w) (map Is bits) bs.
  Proof. apply fe_bits_bool. Qed.
  Lemma unpack_payload_sound payload bs : Forall2 (bit_is w) payload bs ->
    sound w (unpack_payload_bits one payload) (fun r => let '(h, c, header) := r in (928 <= length bs)%nat /\
      num_val w h = fz (height_of bs) /\ num_val w c = fz (chain_work_of bs) /\ Forall2 (bool_is w) header (header_of bs)).
  Proof.
    intro H. apply map_Is_sound in H. unfold unpack_payload_bits. cbv zeta.
    eapply sound_bind; [apply slice_sound|]. intros hb [_ ->]. eapply sound_bind; [apply slice_sound|]. intros cb [_ ->].
    eapply sound_bind; [apply slice_sound|]. intros db [HL ->].
    eapply sound_bind; [apply sound_namespace, bits_to_num_sound, F2_firstn, F2_skipn, H|]. intros h Hh.
    eapply sound_bind; [apply sound_namespace, bits_to_num_sound, F2_firstn, F2_skipn, H|]. intros c Hc.
    apply sound_ret. split; [rewrite <- (F2_length _ _ _ H); exact HL|].
    split; [exact Hh|]. split; [exact Hc|]. apply F2_firstn, F2_skipn, H.
  Qed.
  Lemma nth_error_nth_d {A} (l : list A) i x d : nth_error l i = Some x -> nth i l d = x.
  Proof. revert i. induction l as [|y l IH]; intros [|i] E; try discriminate E; cbn in *; [congruence|auto]. Qed.
  Lemma F2_nth_error_b {A} (R : A -> bool -> Prop) l bs i x : Forall2 R l bs -> nth_error l i = Some x -> R x (nth i bs false).
  Proof.
    intro H. revert i. induction H as [|y z l bs Hy H IH]; intros [|i] E; try discriminate E; cbn in *.
    - injection E as <-. exact Hy.
    - apply IH, E.
  Qed.
  Lemma from_header_sound header hs : Forall2 (bool_is w) header hs ->
    sound w (from_header header) (fun c => Forall2 (bool_is w) (cb_mantissa_bits c) (field_of 576 23 hs) /\
      bool_is w (cb_mantissa_sign_bit c) (negative_target hs) /\ Forall2 (bool_is w) (cb_size_bits c) (field_of 600 8 hs)).
  Proof.
    intro H. unfold from_header.
    eapply sound_bind; [apply slice_sound|]. intros m [_ ->]. eapply sound_bind; [apply index_sound|]. intros g Hg.
    eapply sound_bind; [apply slice_sound|]. intros s [_ ->]. cbv zeta. sstep. apply sound_ret.
    cbn [cb_mantissa_bits cb_mantissa_sign_bit cb_size_bits].
    split; [apply F2_firstn, F2_skipn, H|]. split; [exact (F2_nth_error_b _ _ _ _ _ H Hg)|apply F2_firstn, F2_skipn, H].
  Qed.
  Lemma field_range a n bs : 0 <= bits_val (field_of a n bs) < 2 ^ Z.of_nat n.
  Proof.
    pose proof (bits_val_range (field_of a n bs)) as R. split; [lia|]. eapply Z.lt_le_trans; [apply R|].
    apply Z.pow_le_mono_r; [lia|]. unfold field_of. rewrite firstn_length. lia.
  Qed.
  Theorem bitcoin_sound old new ob nb : Forall2 (bit_is w) old ob -> Forall2 (bit_is w) new nb ->
    sound w (bitcoin_synthesize one old new) (fun _ => (928 <= length ob)%nat /\ (928 <= length nb)%nat /\ exists d, circuit_step p ob nb d).
  Proof.
    intros HO HN. unfold bitcoin_synthesize.
    eapply sound_bind; [apply sound_namespace, (unpack_payload_sound old ob HO)|]. intros [[ph pc] phb] (OL1 & Eph & Epc & Fph).
    eapply sound_bind; [apply sound_namespace, (unpack_payload_sound new nb HN)|]. intros [[h c] hb] (NL1 & Eh & Ec & Fh).
    eapply sound_bind.
    { apply (header_links_sound ph h phb hb (height_of ob) (height_of nb) (header_of ob) (header_of nb)); try assumption; try apply field_range.
      rewrite (F2_length _ _ _ Fph). unfold header_of, field_of. rewrite firstn_length, skipn_length. lia. }
    intros ? [Hh Hp]. cbv beta in Hh, Hp.
    eapply sound_bind; [apply (from_header_sound hb _ Fh)|]. intros cb (Hm & Hg & Hs).
    eapply sound_bind; [apply sound_namespace, (unpack_sound cb _ _ _ Hm Hs Hg)|]. intros [target tv] (Hng & H32 & HL & ts & s & HT & Rs & Et).
    eapply sound_bind; [apply (header_work_sound target tv ts HL HT)|]. intros bw (work & rest & Ew & Rw & Rr & Q).
    sstep. apply sound_ret. rewrite !(lc_val_sub_lc OL), !num_lc_val, Ec, Epc, Ew in H. apply sub_zero in H.
    split; [exact OL1|]. split; [exact NL1|]. exists (mkStep s (bits_val ts) work rest). constructor; cbn [sd_start sd_target sd_work sd_rest]; try assumption.
    - split; [|exact Et]. pose proof (bits_val_range ts) as R. rewrite <- (F2_length _ _ _ HT), HL in R. exact R.
    - split; assumption.
    - apply (fz_eq OL). rewrite (fz_add OL), <- H. ring.
  Qed.
End Sound.
