(** The header circuit of examples/bitcoin.rs with the witnesses of the program. *)
From Coq Require Import String List Bool ZArith Lia Ring Field.
From Verif Require Import Model.FieldTrait Model.Circuits Model.Num Model.Boolean Model.UInt Model.Sha256 Model.Bitcoin
  Spec.FieldLaws Spec.CircuitSpec Spec.NumSpec Spec.BoolSpec Spec.UIntSpec Spec.Sha256Spec Spec.BitcoinSpec
  Proofs.FieldGen Proofs.ZtoF Proofs.CircuitP Proofs.LcP Proofs.NumP Proofs.BoolP Proofs.UnpackP Proofs.AlwaysP
  Proofs.WordP Proofs.UIntP Proofs.UIntArithP Proofs.Sha256P Proofs.BitcoinP.
Import ListNotations.
Open Scope Z_scope. Open Scope list_scope.
Local Notation length := List.length.

(** Values of bytes *)
Lemma byte_of_bits_from bs : forall k acc,
  fold_left (fun acc '(i, b) => acc + (if (b : bool) then Z.shiftl 1 (Z.of_nat i) else 0)) (combine (seq k (length bs)) bs) acc
  = acc + 2 ^ Z.of_nat k * bits_val bs.
Proof.
  induction bs as [|b bs IH]; intros k acc; cbn [length seq combine fold_left bits_val]; [lia|].
  rewrite IH, Nat2Z.inj_succ, Z.pow_succ_r, Z.shiftl_1_l by lia. destruct b; cbn [Z.b2z]; lia.
Qed.
Lemma byte_of_bits_val bs : byte_of_bits bs = bits_val bs.
Proof. unfold byte_of_bits, enumerate. rewrite byte_of_bits_from. change (2 ^ Z.of_nat 0) with 1. lia. Qed.
Lemma u256_le bs : u256_from_le bs = le_val bs.
Proof. induction bs as [|b bs IH]; [reflexivity|]. cbn. rewrite IH. reflexivity. Qed.
Lemma u256_to_le_length x : length (u256_to_le x) = 32%nat.
Proof. unfold u256_to_le. rewrite map_length, seq_length. reflexivity. Qed.
Lemma u256_to_le_bytes x : Forall byte (u256_to_le x).
Proof. unfold u256_to_le. apply Forall_forall. intros b H. apply in_map_iff in H. destruct H as (i & <- & _). apply Z.mod_pos_bound. lia. Qed.
Lemma to_le_val n : forall k x, 0 <= x ->
  le_val (map (fun i => Z.shiftr x (8 * Z.of_nat i) mod 256) (seq k n)) = (Z.shiftr x (8 * Z.of_nat k)) mod 256 ^ Z.of_nat n.
Proof.
  induction n as [|n IH]; intros k x Hx; [cbn; rewrite Z.mod_1_r; reflexivity|].
  cbn [seq map le_val]. rewrite IH by exact Hx. rewrite !Nat2Z.inj_succ, Z.pow_succ_r by lia.
  rewrite Z.rem_mul_r by lia. f_equal. f_equal. f_equal.
  replace (8 * Z.succ (Z.of_nat k)) with (8 * Z.of_nat k + 8) by lia. rewrite <- Z.shiftr_shiftr by lia.
  rewrite (Z.shiftr_div_pow2 _ 8) by lia. reflexivity.
Qed.
Lemma u256_to_le_val x : 0 <= x < 2 ^ 256 -> le_val (u256_to_le x) = x.
Proof.
  intro H. unfold u256_to_le. rewrite to_le_val by lia. change (8 * Z.of_nat 0) with 0. rewrite Z.shiftr_0_r.
  apply Z.mod_small. exact H.
Qed.

Lemma target_bytes_length m size : length (target_bytes m size) = 32%nat.
Proof. unfold target_bytes. rewrite map_length, seq_length. reflexivity. Qed.
Lemma target_bytes_in m size b : In b (target_bytes m size) -> b = 0 \/ b = nth 0 m 0 \/ b = nth 1 m 0 \/ b = nth 2 m 0.
Proof.
  unfold target_bytes. rewrite in_map_iff. intros (i & <- & _).
  destruct (_ =? _); auto. destruct (_ =? _); auto. destruct (_ =? _); auto.
Qed.
Lemma one_of_sizes s : 4 <= s < 32 -> In s (map Z.of_nat (seq 4 28)).
Proof. intro H. rewrite <- (Z2Nat.id s) by lia. apply in_map, in_seq. lia. Qed.
Lemma target_bytes_val m0 m1 m2 size : 4 <= size < 32 ->
  le_val (target_bytes [m0; m1; m2] size) = (m0 + 256 * m1 + 65536 * m2) * 256 ^ (size - 3).
Proof.
  intro H. apply one_of_sizes in H. cbn in H.
  repeat (destruct H as [<-|H]; [match goal with |- context [256 ^ ?e] => let x := eval vm_compute in (256 ^ e) in change (256 ^ e) with x end;
    unfold target_bytes; cbn [map seq Z.of_nat Pos.of_succ_nat Pos.succ Z.eqb Pos.eqb Z.sub Z.add Z.opp Z.pos_sub Pos.pred_double Z.succ_double Z.pred_double Z.double nth le_val]; ring|]).
  destruct H.
Qed.

(** The bits of a byte in the other order *)
Definition mirror (b : Z) : Z := bits_val (rev (byte_bits b)).
Lemma mirror_0 : mirror 0 = 0. Proof. reflexivity. Qed.
Lemma bits_of_byte b : byte b -> bits_val (byte_bits b) = b.
Proof. intro H. rewrite byte_bits_low, low_bits_val. apply Z.mod_small. exact H. Qed.
Lemma byte_bits_of bs : length bs = 8%nat -> byte_bits (bits_val bs) = bs.
Proof.
  intro H. apply bits_val_inj; [rewrite byte_bits_low, low_bits_length; symmetry; exact H|].
  apply bits_of_byte. pose proof (bits_val_range bs) as R. rewrite H in R. exact R.
Qed.
Lemma mirror_same bs : length bs = 8%nat -> (mirror (bits_val bs) = bits_val bs <-> rev bs = bs).
Proof.
  intro H. unfold mirror. rewrite (byte_bits_of bs H). split; [|intros ->; reflexivity].
  apply bits_val_inj. apply rev_length.
Qed.
Lemma mirror_byte b : byte (mirror b).
Proof. unfold mirror. pose proof (bits_val_range (rev (byte_bits b))) as R. rewrite rev_length, byte_bits_low, low_bits_length in R. exact R. Qed.
Lemma mirror_bytes l : Forall byte (map mirror l).
Proof. induction l; constructor; [apply mirror_byte|assumption]. Qed.
Lemma map_target_bytes m0 m1 m2 size : map mirror (target_bytes [m0; m1; m2] size) = target_bytes [mirror m0; mirror m1; mirror m2] size.
Proof.
  unfold target_bytes. rewrite map_map. apply map_ext. intro i. cbn [nth].
  destruct (_ =? _); [reflexivity|]. destruct (_ =? _); [reflexivity|]. destruct (_ =? _); reflexivity.
Qed.

(** Programs that ran on the recorded witness *)
Section Honest.
  Context {F : Field}.
  Definition hsound {A} (w : assignment F) (m : CS F A) (Q : A -> Prop) : Prop :=
    forall tr a, Exec m tr (Some (Ok a)) -> witnessed w tr -> constraints_hold w tr -> Q a.
  Lemma sound_hsound {A} w (m : CS F A) Q : sound w m Q -> hsound w m Q.
  Proof. intros H tr a E _ C. exact (H tr a E C). Qed.
  Lemma hsound_bind {A B} w (m : CS F A) (f : A -> CS F B) Q1 Q :
    hsound w m Q1 -> (forall a, Q1 a -> hsound w (f a) Q) -> hsound w (bind m f) Q.
  Proof.
    intros H1 H2 tr r E W C. apply exec_pbind in E.
    destruct E as [(t1 & t2 & a & -> & E1 & E2)|[E1 E]]; [|discriminate E].
    apply Forall_app in W. destruct W as [W1 W2]. apply Forall_app in C. destruct C as [C1 C2].
    destruct a as [a|e]; [|inversion E2; fail].
    exact (H2 a (H1 _ _ E1 W1 C1) _ _ E2 W2 C2).
  Qed.
  Lemma hsound_any {A} w (m : CS F A) : hsound w m (fun _ => True).
  Proof. intros ? ? _ _ _. exact I. Qed.
  Lemma hsound_namespace {A} w s (m : CS F A) Q : hsound w m Q -> hsound w (namespace s m) Q.
  Proof. intros H tr a E W C. apply exec_namespace in E. exact (H _ _ E W C). Qed.
  Lemma hsound_multiply w s x y z : hsound w (multiply s (Ok (x, y, z))) (fun _ => fmul x y = z).
  Proof.
    intros tr a E W C. unfold multiply in E.
    inversion E; subst;
      try (match goal with W : witnessed _ _ |- _ => inversion W; subst; contradiction end).
    match goal with H3 : Exec _ _ (Some (Ok a)) |- _ => clear H3 end.
    inversion W as [|? ? R _]; subst. inversion C as [|? ? HC _]; subst. destruct R as (Ra & Rb & Rc). cbn [holds] in HC. congruence.
  Qed.
End Honest.

Section Complete.
  Context {F : Field} {p : Z} {v : F -> Z} (FL : FieldLaws F p v) (one : Var).
  Let OL : OpsLaws F p v := fl_ops _ _ _ FL.
  Add Field Ff : (ffield OL).
  Variable w : assignment F.
  Hypothesis w_one : w one = fone.

  Lemma bool_has_is b x : bool_has w b x -> bool_is w b x. Proof. intros [H _]. exact H. Qed.
  Lemma bools_has_is bits bs : Forall2 (bool_has w) bits bs -> Forall2 (bool_is w) bits bs.
  Proof. apply F2_impl. exact bool_has_is. Qed.
  Lemma slice_complete {A} (l : list A) a b : (b <= length l)%nat -> complete w (slice l a b) (fun r => r = firstn (b - a) (skipn a l)).
  Proof. intro H. unfold slice. cstep; [apply Nat.leb_le; exact H|]. cstep. reflexivity. Qed.
  Lemma index_complete {A} (l : list A) i x : nth_error l i = Some x -> complete w (index l i) (fun y => y = x).
  Proof. intro H. unfold index, unwrap. rewrite H. cstep. reflexivity. Qed.
  Lemma num_hint_val bits bs : Forall2 (bool_has w) bits bs ->
    fold_left (fun acc b => omap2 (fun acc bit => fadd (fadd acc acc) bit) acc (option_map f_from_bool (bool_value b))) (rev bits) (Some fzero)
    = Some (fz (bits_val bs) : F).
  Proof.
    induction 1 as [|b x bits bs [_ Hb] H IH]; [reflexivity|]. cbn [rev bits_val]. rewrite fold_left_app, IH. cbn [fold_left].
    rewrite Hb. cbn [option_map omap2]. f_equal. rewrite (fb_of_bit FL), of_bit_fz, (fz_add OL), (fz_mul OL).
    change (fz 2) with (fadd fone fone : F). ring.
  Qed.
  Lemma bits_to_num_complete bits bs : Forall2 (bool_has w) bits bs ->
    complete w (bits_to_num one bits) (fun n => num_ok w n /\ num_val w n = fz (bits_val bs)).
  Proof.
    intro H. unfold bits_to_num. cbv zeta. rewrite (num_hint_val _ _ H).
    eapply complete_bind; [apply complete_namespace, (num_alloc_complete w); reflexivity|]. intros n [Hn E].
    cstep. { rewrite (lc_val_sub_lc OL), (num_lc_val FL), (lc_from_bits_val FL one w w_one _ _ (bools_has_is _ _ H)), E. ring. }
    cstep. split; assumption.
  Qed.
  Lemma enforce_equality_complete a b xs ys : length a = length b -> Forall2 (bool_is w) a xs -> Forall2 (bool_is w) b ys ->
    bits_val xs mod p = bits_val ys mod p -> complete w (enforce_equality one a b) (fun _ => True).
  Proof.
    intros H HA HB HE. unfold enforce_equality. cstep; [apply Nat.eqb_eq; exact H|].
    pose proof (equality_lcs_val FL one w w_one a b xs ys lc_zero lc_zero COne 1 H HA HB eq_refl) as E.
    destruct (equality_lcs _ _ _ _ _ _) as [la lb]. destruct E as [E1 E2]. apply complete_enforce; [|exact I].
    rewrite (lc_val_sub_lc OL), E1, E2, lc_val_zero, !Z.mul_1_l. apply (fz_eq OL) in HE. rewrite HE. ring.
  Qed.
  Lemma sha256d_complete data bs n : length data = (8 * n)%nat -> Forall2 (bool_has w) data bs ->
    complete w (sha256d one data) (fun o => Forall2 (bool_has w) o (double_sha256 bs)).
  Proof.
    intros HL H. unfold sha256d, double_sha256.
    assert (HL' : length bs = (8 * n)%nat) by (rewrite <- HL; symmetry; exact (F2_length _ _ _ H)).
    pose proof (F2_flip _ _ _ H) as HF. rewrite (flip_reverse bs n HL') in HF.
    eapply complete_bind; [apply complete_namespace, (sha256_complete FL one w w_one); [|exact HF]|].
    { rewrite (F2_length _ _ _ HF), (reverse_length bs n HL'), Nat.mul_comm. apply Nat.mod_mul. discriminate. }
    intros mid Hm.
    eapply complete_bind; [apply complete_namespace, (sha256_complete FL one w w_one); [|exact Hm]|].
    { rewrite (F2_length _ _ _ Hm), SHA256_length. reflexivity. }
    intros r Hr. cstep. apply F2_flip in Hr. rewrite (flip_reverse (SHA256 _) 32) in Hr by apply SHA256_length. exact Hr.
  Qed.
  Lemma prod_bits bytes : forall k,
    map (fun '(i, j) => Z.testbit (nth (i - k) bytes 0) (Z.of_nat j)) (list_prod (seq k (length bytes)) (seq 0 8)) = flat_map byte_bits bytes.
  Proof.
    induction bytes as [|b bytes IH]; intro k; [reflexivity|].
    cbn [length]. change (seq k (S (length bytes))) with (k :: seq (S k) (length bytes)).
    change (list_prod (k :: seq (S k) (length bytes)) (seq 0 8)) with (map (fun y => (k, y)) (seq 0 8) ++ list_prod (seq (S k) (length bytes)) (seq 0 8)).
    rewrite map_app, map_map. change (flat_map byte_bits (b :: bytes)) with (byte_bits b ++ flat_map byte_bits bytes). f_equal.
    - unfold byte_bits. apply map_ext. intro j. rewrite Nat.sub_diag. reflexivity.
    - rewrite <- (IH (S k)). apply map_ext_in. intros [i j] Hi. apply in_prod_iff in Hi. destruct Hi as [Hi _]. apply in_seq in Hi.
      replace (i - k)%nat with (S (i - S k)) by lia. reflexivity.
  Qed.
  Lemma bytes_to_bits_complete bytes : complete w (bytes_to_bits (Some bytes) (length bytes)) (fun o => Forall2 (bool_has w) o (flat_map byte_bits bytes)).
  Proof.
    unfold bytes_to_bits. eapply complete_weaken.
    - apply (complete_mapM w _ (fun ij b => bool_has w b (let '(i, j) := ij in Z.testbit (nth (i - 0) bytes 0) (Z.of_nat j)))). intros [i j] _.
      eapply complete_bind; [apply complete_namespace; refine (bit_alloc_complete FL one w _ _ eq_refl)|]. intros b [Hb Hv]. cstep.
      rewrite Nat.sub_0_r. split; assumption.
    - intros o H. rewrite <- (prod_bits bytes 0). cbv beta in H. revert H. generalize (list_prod (seq 0 (length bytes)) (seq 0 8)). intros l H.
      induction H as [|[i j] b l o Hb H IH]; constructor; assumption.
  Qed.

  (** The target *)
  Lemma all_values_has bits bs : Forall2 (bool_has w) bits bs -> all_values bits = Some bs.
  Proof. induction 1 as [|b x bits bs [_ Hb] H IH]; [reflexivity|]. cbn [all_values]. rewrite Hb, IH. reflexivity. Qed.
  Lemma from_header_complete header hs : length hs = 640%nat -> Forall2 (bool_has w) header hs -> 4 <= size_of hs ->
    complete w (from_header header) (fun c =>
      Forall2 (bool_has w) (cb_mantissa_bits c) (field_of 576 23 hs) /\ bool_has w (cb_mantissa_sign_bit c) (negative_target hs) /\
      Forall2 (bool_has w) (cb_size_bits c) (field_of 600 8 hs) /\ cb_size c = Some (size_of hs) /\
      cb_mantissa c = Some [bits_val (field_of 576 8 hs); bits_val (field_of 584 8 hs); bits_val (field_of 592 7 hs)]).
  Proof.
    intros HL H H4. unfold from_header. assert (HL' : length header = 640%nat) by (rewrite (F2_length _ _ _ H); exact HL).
    assert (HN : exists g, nth_error header 599 = Some g).
    { destruct (nth_error header 599) eqn:E; [eexists; reflexivity|]. apply nth_error_None in E. lia. }
    destruct HN as [g Hg].
    eapply complete_bind; [apply slice_complete; rewrite HL'; vm_compute; repeat constructor|]. intros m ->.
    eapply complete_bind; [apply (index_complete _ _ g Hg)|]. intros ? ->.
    eapply complete_bind; [apply slice_complete; rewrite HL'; vm_compute; repeat constructor|]. intros s ->. cbv zeta.
    change (firstn (8 * NBITS_START + 23 - 8 * NBITS_START) (skipn (8 * NBITS_START) header)) with (firstn 23 (skipn 576 header)).
    change (firstn (8 * NBITS_START + 32 - (8 * NBITS_START + 24)) (skipn (8 * NBITS_START + 24) header)) with (firstn 8 (skipn 600 header)).
    assert (HM : Forall2 (bool_has w) (firstn 23 (skipn 576 header)) (field_of 576 23 hs)) by (apply F2_firstn, F2_skipn, H).
    assert (HS : Forall2 (bool_has w) (firstn 8 (skipn 600 header)) (field_of 600 8 hs)) by (apply F2_firstn, F2_skipn, H).
    rewrite (all_values_has _ _ HM), (all_values_has _ _ HS). cbn [option_map]. rewrite byte_of_bits_val.
    cstep; [apply Z.leb_le; exact H4|]. cstep. cbn [cb_mantissa_bits cb_mantissa_sign_bit cb_size_bits cb_size cb_mantissa].
    split; [exact HM|]. split; [exact (F2_nth_error_b _ _ _ _ _ H Hg)|]. split; [exact HS|]. split; [reflexivity|]. f_equal.
    unfold Sha256.chunks. replace (length (field_of 576 23 hs)) with 23%nat by (unfold field_of; rewrite firstn_length, skipn_length; lia).
    change ((23 + (8 - 1)) / 8)%nat with 3%nat. cbn [seq map]. rewrite !byte_of_bits_val. unfold field_of.
    assert (K : forall a b (l : list bool), skipn b (skipn a l) = skipn (a + b) l) by (intros a; induction a as [|a IH]; intros b [|x l]; try reflexivity; [destruct b; reflexivity|apply IH]).
    assert (G : forall a n k j (l : list bool), (j + n <= k)%nat -> firstn n (skipn j (firstn k (skipn a l))) = firstn n (skipn (a + j) l)).
    { intros a n k j l Hk. rewrite skipn_firstn_comm, firstn_firstn, K. f_equal. lia. }
    rewrite (G 576%nat 8%nat 23%nat (8 * 0)%nat), (G 576%nat 8%nat 23%nat (8 * 1)%nat) by (cbn; lia).
    rewrite skipn_firstn_comm, firstn_firstn, K. reflexivity.
  Qed.
  Lemma size_bits_nth self ss i x : Forall2 (bool_has w) (cb_size_bits self) ss -> nth_error (cb_size_bits self) i = Some x -> bool_has w x (nth i ss false).
  Proof. intros H E. exact (F2_nth_error_b _ _ _ _ _ H E). Qed.
  Lemma pow_step_complete base pow_size bit x : num_ok w base -> num_val w base = fz 256 -> num_ok w pow_size -> bool_has w bit x ->
    complete w (pow_step one base pow_size bit) (fun n => num_ok w n /\ num_val w n = fmul (fmul (num_val w pow_size) (num_val w pow_size)) (fz (if x then 256 else 1))).
  Proof.
    intros OB HB OP Hb.
    eapply complete_weaken; [apply (complete_sound w _ (num_ok w))|intros n [H1 H2]; split; [exact H1|exact H2]].
    2: { apply (pow_step_sound FL one w w_one); [exact HB|apply bool_has_is, Hb]. }
    unfold pow_step. cstep.
    eapply complete_bind; [apply complete_namespace, (complete_sound w _ _ _ (num_mul_complete FL one w _ _ OP OP) (num_mul_sound FL one w _ _))|]. intros sq [Osq _].
    eapply complete_bind; [apply complete_namespace, (complete_sound w _ _ _ (num_mul_complete FL one w _ _ Osq OB) (num_mul_sound FL one w _ _))|]. intros m [Om _].
    destruct Hb as [Hb Hv]. unfold num_ok in *. rewrite Hv, Osq, Om.
    eapply complete_bind; [apply complete_namespace, (num_alloc_complete w); reflexivity|]. intros nx [On En].
    unfold num_ok in On. rewrite On.
    cstep; [reflexivity| |].
    { rewrite (fb_of_bit FL), En. destruct x; cbn [of_bit]; ring. }
    cstep. { rewrite (lc_val_sub_v OL), (bool_lc1_val FL one w w_one _ _ Hb), H, (fb_of_bit FL). ring. }
    cstep. { rewrite (lc_val_sub_v OL), (lc_val_sub_lc OL), !(num_lc_val FL), H0. ring. }
    cstep. { rewrite (lc_val_sub_v OL), (lc_val_sub_lc OL), !(num_lc_val FL), H1. ring. }
    cstep. exact On.
  Qed.
  Lemma unpack_power_complete self ss : Forall2 (bool_has w) (cb_size_bits self) ss -> length ss = 8%nat -> bits_val ss < 32 ->
    complete w (unpack_power one self) (fun n => num_ok w n /\ num_val w n = fz (256 ^ bits_val ss)).
  Proof.
    intros H HL H32. unfold unpack_power.
    eapply complete_bind; [apply complete_namespace, (num_alloc_complete w); reflexivity|]. intros base [OB EB].
    rewrite (from_u64_256 FL) in EB by lia.
    cstep. { rewrite (lc_val_sub_cv OL), (num_lc_val FL), EB, w_one. cbn [coeff_val]. rewrite (from_u64_256 FL) by lia. ring. }
    cstep. { apply Nat.eqb_eq. rewrite (F2_length _ _ _ H). exact HL. }
    destruct ss as [|s0 [|s1 [|s2 [|s3 [|s4 [|s5 [|s6 [|s7 [|? ?]]]]]]]]]; try discriminate HL.
    assert (S567 : s5 = false /\ s6 = false /\ s7 = false).
    { cbn [bits_val] in H32. destruct s0, s1, s2, s3, s4, s5, s6, s7; cbn [Z.b2z] in H32; try lia; auto. }
    destruct S567 as (-> & -> & ->).
    destruct (cb_size_bits self) as [|c0 [|c1 [|c2 [|c3 [|c4 [|c5 [|c6 [|c7 [|? ?]]]]]]]]]; try (apply F2_length in H; discriminate H).
    repeat match goal with H : Forall2 _ (_ :: _) _ |- _ => inversion H; subst; clear H end.
    cbn [index nth_error unwrap].
    assert (Z0 : forall c, bool_has w c false -> lc_val w (bool_lc c one COne) = fzero).
    { intros c [Hc _]. rewrite (bool_lc1_val FL one w w_one c false Hc). reflexivity. }
    cstep. cstep; [apply Z0; assumption|]. cstep. cstep; [apply Z0; assumption|]. cstep. cstep; [apply Z0; assumption|].
    eapply complete_bind; [apply complete_namespace, (num_alloc_complete w); reflexivity|]. intros st [OS ES].
    cbn [rev app skipn foldM].
    eapply complete_bind; [apply pow_step_complete; eassumption|]. intros n4 [O4 E4].
    eapply complete_bind; [apply pow_step_complete; eassumption|]. intros n3 [O3 E3].
    eapply complete_bind; [apply pow_step_complete; eassumption|]. intros n2 [O2 E2].
    eapply complete_bind; [apply pow_step_complete; eassumption|]. intros n1 [O1 E1].
    eapply complete_bind; [apply pow_step_complete; eassumption|]. intros n0 [O0 E0]. cstep.
    split; [exact O0|].
    replace (256 ^ bits_val [s0; s1; s2; s3; s4; false; false; false]) with (1 ^ 32 * 256 ^ bits_val [s0; s1; s2; s3; s4; false; false; false]) by (rewrite Z.pow_1_l by lia; lia).
    rewrite <- five_powers. cbv zeta. rewrite !(fz_mul OL). rewrite E0, E1, E2, E3, E4, ES. reflexivity.
  Qed.
  Lemma inner_bits_val b : forall acc : F,
    fold_left (fun target_val i => let target_val := fadd target_val target_val in
        if Z.testbit b (Z.of_nat i) then fadd target_val fone else target_val) (seq 0 8) acc
    = fadd (fmul (fz 256) acc) (fz (mirror b)).
  Proof.
    intro acc. unfold mirror, byte_bits. cbn [seq map rev app fold_left].
    change (fz 256) with (fz (2 * (2 * (2 * (2 * (2 * (2 * (2 * 2))))))) : F).
    generalize (Z.testbit b (Z.of_nat 0)), (Z.testbit b (Z.of_nat 1)), (Z.testbit b (Z.of_nat 2)), (Z.testbit b (Z.of_nat 3)),
      (Z.testbit b (Z.of_nat 4)), (Z.testbit b (Z.of_nat 5)), (Z.testbit b (Z.of_nat 6)), (Z.testbit b (Z.of_nat 7)).
    intros t0 t1 t2 t3 t4 t5 t6 t7. cbv zeta.
    assert (S : forall (t : bool) (a : F), (if t then fadd (fadd a a) fone else fadd a a) = fadd (fmul (fz 2) a) (fz (Z.b2z t))).
    { intros t a. change (fz 2) with (fadd fone fone : F). destruct t; cbn [Z.b2z]; rewrite ?fz_0, ?fz_1; ring. }
    rewrite !S. cbn [bits_val]. repeat (rewrite (fz_add OL) || rewrite (fz_mul OL)). rewrite fz_0. generalize (@fz F 2). intro two. ring.
  Qed.
  Lemma double_and_add_val l : double_and_add (F := F) l = fz (le_val (map mirror l)).
  Proof.
    unfold double_and_add. induction l as [|b l IH]; [reflexivity|]. cbn [rev map le_val]. rewrite fold_left_app, IH.
    cbn [fold_left]. rewrite inner_bits_val, (fz_add OL), (fz_mul OL). ring.
  Qed.
  Lemma pow_256 n : 0 <= n < 2 ^ 64 -> pow F (f_from_u64 256) (L4 n 0 0 0) = fz (256 ^ n).
  Proof.
    intro H. rewrite (pow_zpow OL).
    - unfold FieldLaws.limbs_val. cbn [l0 l1 l2 l3]. rewrite !Z.mul_0_r, !Z.add_0_r. rewrite (from_u64_256 FL) by lia.
      rewrite (fz_pow_zpow OL) by lia. reflexivity.
    - unfold limbs_wf. cbn [l0 l1 l2 l3]. lia.
  Qed.
  Lemma unpack_complete self ms ss m0 m1 m2 : Forall2 (bool_has w) (cb_mantissa_bits self) ms -> bool_has w (cb_mantissa_sign_bit self) false ->
    Forall2 (bool_has w) (cb_size_bits self) ss -> length ss = 8%nat -> 4 <= bits_val ss < 32 ->
    cb_size self = Some (bits_val ss) -> cb_mantissa self = Some [m0; m1; m2] ->
    byte m0 -> byte m1 -> byte m2 -> bits_val ms = m0 + 256 * m1 + 65536 * m2 -> mirror m0 = m0 -> mirror m1 = m1 -> mirror m2 = m2 ->
    complete w (unpack one self) (fun '(target, tv) => exists ts, Forall2 (bool_has w) target ts /\ length ts = 256%nat /\
      bits_val ts = bits_val ms * 256 ^ (bits_val ss - 3) /\ tv = Some (bits_val ms * 256 ^ (bits_val ss - 3))).
  Proof.
    intros HM HG HS HL HR ES EM B0 B1 B2 EV R0 R1 R2. unfold unpack.
    set (T := bits_val ms * 256 ^ (bits_val ss - 3)).
    set (tb := target_bytes [m0; m1; m2] (bits_val ss)).
    assert (HT : le_val tb = T) by (unfold tb, T; rewrite target_bytes_val by exact HR; rewrite EV; reflexivity).
    assert (HB : Forall byte tb).
    { apply Forall_forall. intros b Hb. apply target_bytes_in in Hb. cbn [nth] in Hb. unfold byte in *. destruct Hb as [->|[->|[->| ->]]]; lia. }
    assert (HD : double_and_add tb = fz T :> F).
    { rewrite double_and_add_val. unfold tb. rewrite map_target_bytes, R0, R1, R2. fold tb. rewrite HT. reflexivity. }
    eapply (complete_bind _ _ _ (fun '(target, tv) => Forall2 (bool_has w) target (flat_map byte_bits tb) /\ tv = Some tb)).
    { unfold unpack_target.
      cstep. { rewrite (bool_lc1_val FL one w w_one _ _ (bool_has_is _ _ HG)). reflexivity. }
      rewrite EM, ES. cstep. cstep. { apply andb_true_intro. split; apply Z.leb_le; lia. }
      cstep. fold tb.
      eapply complete_bind; [apply complete_namespace|].
      { pose proof (bytes_to_bits_complete tb) as HC. replace (length tb) with 32%nat in HC by (symmetry; apply target_bytes_length). exact HC. }
      intros o Ho. cstep. auto. }
    intros [target tv] [Htar ->].
    eapply complete_bind; [apply (unpack_power_complete self ss HS HL ltac:(lia))|]. intros pw [OP EP]. cbv zeta.
    rewrite ES, EM. cbn [option_map ok_or_missing rbind].
    assert (EQ : bits_val (flat_map byte_bits tb) = T) by (rewrite bytes_bits_val by exact HB; exact HT).
    assert (E256 : 256 ^ (bits_val ss - 3) * 16777216 = 256 ^ bits_val ss).
    { change 16777216 with (256 ^ 3). rewrite <- Z.pow_add_r by lia. f_equal. lia. }
    assert (Hu : f_from_u64 (u256_from_le [m0; m1; m2]) = fz (bits_val ms) :> F).
    { rewrite u256_le. cbn [le_val]. rewrite (from_u64_256 FL) by (unfold byte in *; lia). f_equal. rewrite EV. lia. }
    rewrite Hu, !pow_256 by lia. rewrite HD.
    assert (Hk : f_from_u64 16777216 = fz 16777216 :> F) by (apply (from_u64_256 FL); lia). rewrite Hk.
    assert (G1 : fmul (fz (bits_val ms)) (fz (256 ^ (bits_val ss - 3))) = fz T :> F) by (rewrite <- (fz_mul OL); reflexivity).
    assert (G2 : fmul (fz (256 ^ (bits_val ss - 3))) (fz 16777216) = fz (256 ^ bits_val ss) :> F) by (rewrite <- (fz_mul OL), E256; reflexivity).
    cstep; [reflexivity|exact G1|]. cstep; [reflexivity|exact G2|].
    clear G1 G2 HD Hu Hk E256. revert EP. generalize dependent (@fz F 16777216). intros k H3.
    intro EP.
    pose proof (lc_from_bits_val FL one w w_one _ _ (bools_has_is _ _ HM)) as LM.
    pose proof (lc_from_bits_val FL one w w_one _ _ (bools_has_is _ _ Htar)) as LT. rewrite EQ in LT.
    generalize dependent (@fz F T). intros fT ? ?. generalize dependent (@fz F (bits_val ms)). intros fM ? ?.
    repeat (cstep; [first [rewrite (lc_val_sub_v OL) | rewrite (lc_val_sub_cv OL)]; rewrite ?(lc_val_from OL), ?(num_lc_val FL), ?w_one; cbn [coeff_val]; idtac|]).
    - rewrite LM, H. ring.
    - rewrite LT, H1. ring.
    - rewrite H0, H2. ring.
    - rewrite H3. ring.
    - rewrite EP, H4. ring.
    - cstep. exists (flat_map byte_bits tb). split; [exact Htar|].
      split; [rewrite bytes_bits_length; unfold tb; rewrite target_bytes_length; reflexivity|].
      split; [exact EQ|]. rewrite u256_le, HT. reflexivity.
  Qed.

  (** The product *)
  Definition has64 : UInt -> Z -> Prop := word_has w 64.
  Lemma four_limbs_complete bits bs : length bits = 256%nat -> Forall2 (bool_has w) bits bs ->
    complete w (four_limbs bits) (fun us => exists z0 z1 z2 z3, Forall2 has64 us [z0; z1; z2; z3] /\ bits_val bs = limbs_val [z0; z1; z2; z3]).
  Proof.
    intros HL H. unfold four_limbs. eapply complete_weaken.
    - apply (complete_mapM w _ (fun i u => has64 u (bits_val (firstn 64 (skipn (64 * i) bs))))). intros i Hi. apply in_seq in Hi.
      eapply complete_bind; [apply slice_complete; lia|]. intros r ->.
      replace (64 * i + 64 - 64 * i)%nat with 64%nat by lia.
      eapply complete_weaken; [apply (u_from_bits_complete w 64)|].
      + rewrite firstn_length, skipn_length. lia.
      + apply F2_firstn, F2_skipn, H.
      + intros u [_ Hu]. exact Hu.
    - cbn [seq]. intros us HU. repeat match goal with H : Forall2 _ (_ :: _) _ |- _ => inversion H; subst; clear H end.
      match goal with H : Forall2 _ [] _ |- _ => inversion H; subst; clear H end.
      eexists _, _, _, _. split; [repeat (constructor; [eassumption|]); constructor|].
      apply F2_length in H. rewrite HL in H. symmetry in H. apply bits_limbs, H.
  Qed.
  Lemma F2_index (l : list UInt) zs i : Forall2 has64 l zs -> (i < length zs)%nat -> exists x, nth_error l i = Some x /\ has64 x (nth i zs 0).
  Proof.
    intros H Hi. destruct (nth_error l i) as [x|] eqn:E.
    - exists x. split; [reflexivity|]. exact (F2_nth_error _ _ _ _ _ H E).
    - apply nth_error_None in E. rewrite (F2_length _ _ _ H) in E. lia.
  Qed.
  Lemma set_nth_length {A} (l : list A) i x : (i < length l)%nat -> length (set_nth l i x) = length l.
  Proof. intro H. unfold set_nth. rewrite app_length, firstn_length. cbn [length]. rewrite skipn_length. lia. Qed.
  Lemma mul_inner_complete ts xs ws k zt zx zw zk j i : Forall2 has64 ts zt -> Forall2 has64 xs zx -> Forall2 has64 ws zw -> has64 k zk ->
    (i < length zt)%nat -> (j < length zx)%nat -> (i + j < length zw)%nat ->
    complete w (mul_inner one ts xs j (ws, k) i) (fun r => exists zw' zk', Forall2 has64 (fst r) zw' /\ length zw' = length zw /\ has64 (snd r) zk').
  Proof.
    intros HT HX HW HK Hi Hj Hij. unfold mul_inner.
    destruct (F2_index _ _ _ HT Hi) as (t & Et & Ht). destruct (F2_index _ _ _ HX Hj) as (x & Ex & Hx). destruct (F2_index _ _ _ HW Hij) as (y & Ey & Hy).
    eapply complete_bind; [apply (index_complete _ _ _ Et)|]. intros ? ->. eapply complete_bind; [apply (index_complete _ _ _ Ex)|]. intros ? ->.
    eapply complete_bind; [apply (index_complete _ _ _ Ey)|]. intros ? ->.
    eapply complete_bind; [apply complete_namespace, (mul_acc2_complete FL one w w_one _ _ _ _ _ _ _ _ Ht Hx Hy HK)|].
    intros [lo hi] (zl & zh & Hl & Hh & E). cstep. exists (set_nth zw (i + j) zl), zh. cbn [fst snd].
    split; [apply F2_set_nth; assumption|]. split; [apply set_nth_length, Hij|exact Hh].
  Qed.
  Lemma mul_outer_complete ts xs ws zt zx zw j : Forall2 has64 ts zt -> Forall2 has64 xs zx -> Forall2 has64 ws zw ->
    length zt = 4%nat -> length zx = 4%nat -> length zw = 8%nat -> (j < 4)%nat ->
    complete w (mul_outer one ts xs ws j) (fun ws' => exists zw', Forall2 has64 ws' zw' /\ length zw' = 8%nat).
  Proof.
    intros HT HX HW LT LX LW Hj. unfold mul_outer.
    eapply (complete_bind _ _ _ (fun r => exists zw' zk', Forall2 has64 (fst r) zw' /\ length zw' = 8%nat /\ has64 (snd r) zk')).
    - apply (complete_weaken w _ (fun r => incl [] (seq 0 4) /\ exists zw' zk', Forall2 has64 (fst r) zw' /\ length zw' = 8%nat /\ has64 (snd r) zk'));
        [|intros r HR; exact (proj2 HR)].
      apply (complete_foldM w _ (fun rest r => incl rest (seq 0 4) /\ exists zw' zk', Forall2 has64 (fst r) zw' /\ length zw' = 8%nat /\ has64 (snd r) zk')).
      + intros i rest [ws1 k1] (HI & zw1 & zk1 & H1 & L1 & K1). cbn [fst snd] in H1, K1.
        assert (Hi : (i < 4)%nat) by (assert (Hin : In i (seq 0 4)) by (apply HI; left; reflexivity); apply in_seq in Hin; lia).
        eapply complete_weaken; [apply (mul_inner_complete ts xs ws1 k1 zt zx zw1 zk1 j i HT HX H1 K1); lia|].
        intros r (zw2 & zk2 & H2 & L2 & K2). split; [intros y Hy; apply HI; right; exact Hy|]. exists zw2, zk2. rewrite L2, L1. auto.
      + split; [apply incl_refl|]. exists zw, 0. cbn [fst snd]. split; [exact HW|]. split; [exact LW|]. apply u_constant_has. split; [lia|reflexivity].
    - intros [ws' k] (zw' & zk & H' & L' & K'). cbn [fst snd] in H', K'. cstep. exists (set_nth zw' (j + 4) zk).
      split; [apply F2_set_nth; assumption|]. rewrite set_nth_length by lia. exact L'.
  Qed.
  Lemma has_ok us zs : Forall2 has64 us zs -> Forall2 (ok64 w) us zs.
  Proof. apply F2_impl. intros u z. apply word_has_ok. Qed.
  Lemma mul_limbs_complete ts xs rs t0 t1 t2 t3 x0 x1 x2 x3 r0 r1 r2 r3 :
    Forall2 has64 ts [t0; t1; t2; t3] -> Forall2 has64 xs [x0; x1; x2; x3] -> Forall2 has64 rs [r0; r1; r2; r3] ->
    complete w (mul_limbs one ts xs (rs ++ repeat (u_constant 64 0) 4)) (fun ws => exists zw, Forall2 (ok64 w) ws zw /\ length zw = 8%nat /\
      limbs_val zw = limbs_val [r0; r1; r2; r3] + limbs_val [x0; x1; x2; x3] * limbs_val [t0; t1; t2; t3]).
  Proof.
    intros HT HX HR. eapply complete_weaken.
    - apply (complete_sound w _ (fun _ => True)).
      + unfold mul_limbs. apply complete_namespace.
        eapply complete_weaken; [|intros r _; exact I].
        apply (complete_foldM w _ (fun rest ws => incl rest (seq 0 4) /\ exists zw, Forall2 has64 ws zw /\ length zw = 8%nat)).
        * intros j rest ws (HI & zw & HW & LW).
          assert (Hj : (j < 4)%nat) by (assert (Hin : In j (seq 0 4)) by (apply HI; left; reflexivity); apply in_seq in Hin; lia).
          eapply complete_weaken; [apply (mul_outer_complete ts xs ws _ _ zw j HT HX HW eq_refl eq_refl LW Hj)|].
          intros ws' H'. split; [intros y Hy; apply HI; right; exact Hy|exact H'].
        * split; [apply incl_refl|]. exists ([r0; r1; r2; r3] ++ [0; 0; 0; 0]). split; [|reflexivity].
          assert (H0 : has64 (u_constant 64 0) 0) by (apply u_constant_has; split; [lia|reflexivity]).
          apply Forall2_app; [exact HR|repeat (constructor; [exact H0|]); constructor].
      + apply (mul_limbs_sound FL one w w_one); apply has_ok; eassumption.
    - intros ws [_ H]. exact H.
  Qed.
  Lemma limbs_unique zs : forall zs', length zs = length zs' -> Forall (in_word 64) zs -> Forall (in_word 64) zs' -> limbs_val zs = limbs_val zs' -> zs = zs'.
  Proof.
    induction zs as [|z zs IH]; intros [|z' zs'] HL H H' E; try discriminate HL; [reflexivity|].
    inversion H; subst. inversion H'; subst. cbn [limbs_val] in E. unfold in_word in *. change (Z.of_nat 64) with 64 in *.
    assert (z = z' /\ limbs_val zs = limbs_val zs') as [-> E'] by (split; nia).
    f_equal. apply IH; auto.
  Qed.
  Lemma fe_of_u256_ok x : 0 <= x < p -> fe_of_u256 (F := F) x = Ok (fz x).
  Proof.
    intro H. unfold fe_of_u256. destruct (fl_size _ _ _ FL) as [_ S2].
    assert (Hx : 0 <= x < 2 ^ 256) by (split; [lia|]; eapply Z.lt_trans; [apply H|]; eapply Z.lt_trans; [exact S2|reflexivity]).
    destruct (fl_from_bytes _ _ _ FL _ (u256_to_le_length x) (u256_to_le_bytes x)) as [HE _]. rewrite (u256_to_le_val x Hx) in HE.
    destruct (HE (proj2 H)) as (a & -> & Ea). f_equal. rewrite <- Ea. symmetry. apply (fz_v OL).
  Qed.
  Definition work_for (T : Z) : Z := (U256_MAX - T) / (T + 1) + 1.
  Definition rest_for (T : Z) : Z := (U256_MAX - T) mod (T + 1).
  Lemma work_rest T : 256 <= T < 2 ^ 250 -> 0 <= work_for T < 2 ^ 250 /\ 0 <= rest_for T < 2 ^ 251 /\ (T + 1) * work_for T + rest_for T = 2 ^ 256 /\
    work_for T = 2 ^ 256 / (T + 1).
  Proof.
    intro H. unfold work_for, rest_for. pose proof (Z.div_mod (U256_MAX - T) (T + 1) ltac:(lia)) as HD.
    pose proof (Z.mod_pos_bound (U256_MAX - T) (T + 1) ltac:(lia)) as HM.
    set (q := (U256_MAX - T) / (T + 1)) in *. set (r := (U256_MAX - T) mod (T + 1)) in *.
    assert (E : (T + 1) * (q + 1) + r = 2 ^ 256) by (unfold U256_MAX in HD; lia).
    assert (Q : 0 <= q < 2 ^ 249).
    { split; [apply Z.div_pos; unfold U256_MAX; lia|]. apply Z.div_lt_upper_bound; [lia|]. unfold U256_MAX. lia. }
    split; [lia|]. split; [lia|]. split; [exact E|]. apply (Z.div_unique _ _ _ r); lia.
  Qed.
  Lemma work_hints T : 256 <= T < 2 ^ 250 -> block_work_of (F := F) T = Some (Ok (fz (work_for T))) /\ remainder_of (F := F) T = Some (Ok (fz (rest_for T))).
  Proof.
    intro H. destruct (work_rest T H) as (RW & RR & _). pose proof (p_large FL) as PL.
    unfold block_work_of, remainder_of, u256_add. unfold work_for in *.
    assert (T1 : T + 1 <=? U256_MAX = true) by (apply Z.leb_le; unfold U256_MAX; lia). rewrite T1. cbn [obind].
    assert (T2 : (U256_MAX - T) / (T + 1) + 1 <=? U256_MAX = true) by (apply Z.leb_le; unfold U256_MAX in *; lia). rewrite T2. cbn [obind].
    fold (rest_for T). split; rewrite fe_of_u256_ok by lia; reflexivity.
  Qed.
  Lemma header_work_complete target ts T : length target = 256%nat -> Forall2 (bool_has w) target ts -> bits_val ts = T -> 256 <= T < 2 ^ 250 -> T mod 2 = 0 ->
    complete w (header_work one target (Some T)) (fun n => num_ok w n /\ num_val w n = fz (work_for T)).
  Proof.
    intros HL HT ET HR HE. destruct (work_hints T HR) as [HW HM]. destruct (work_rest T HR) as (RW & RR & EQ & _).
    unfold header_work. cbv zeta. unfold from_target. rewrite HW, HM.
    destruct target as [|b0 target]; [discriminate HL|]. inversion HT as [|? x0 ? ts' Hb0 HT']; subst. cbn [skipn unwrap].
    assert (HP : Forall2 (bool_has w) (Constant true :: target) (true :: ts')) by (constructor; [split; reflexivity|exact HT']).
    set (T := bits_val (x0 :: ts')) in *.
    assert (ET : bits_val (true :: ts') = T + 1).
    { unfold T in HE |- *. cbn [bits_val] in HE |- *. rewrite (Z.mul_comm 2), Z.mod_add in HE by lia. destruct x0; [discriminate HE|]. cbn [Z.b2z]. lia. }
    eapply complete_bind; [exact (four_limbs_complete (Constant true :: target) _ HL HP)|]. intros tl (t0 & t1 & t2 & t3 & FT & VT).
    assert (PL := p_large FL).
    assert (UP : forall z, 0 <= z < 2 ^ 251 -> v (fz z) = z) by (intros z Hz; rewrite (v_fz OL); apply Z.mod_small; lia).
    cstep.
    eapply complete_bind; [apply complete_namespace, (num_alloc_complete w); reflexivity|]. intros bw [OW EW].
    eapply complete_bind; [apply complete_namespace, (unpack_fe_complete FL one w w_one)|].
    { apply (n_from_ok FL), OW. }
    intros wb (ws & LW & BW & VW). rewrite (n_from_val FL), EW, UP in VW by lia.
    assert (bits_bools : forall bits bs, Forall2 (bit_has w) bits bs -> Forall2 (bool_has w) (map Is bits) bs).
    { intros bits bs HH. induction HH as [|? ? ? ? Hx HH IH]; constructor; auto. }
    eapply complete_bind; [apply (four_limbs_complete (map Is wb) ws); [rewrite map_length; exact LW|apply bits_bools, BW]|].
    intros xl (x0' & x1 & x2 & x3 & FX & VX).
    cstep.
    eapply complete_bind; [apply complete_namespace, (num_alloc_complete w); reflexivity|]. intros rn [OR ER].
    eapply complete_bind; [apply complete_namespace, (unpack_fe_complete FL one w w_one)|].
    { apply (n_from_ok FL), OR. }
    intros rb (rs & LR & BR & VR). rewrite (n_from_val FL), ER, UP in VR by lia.
    eapply complete_bind; [apply (four_limbs_complete (map Is rb) rs); [rewrite map_length; exact LR|apply bits_bools, BR]|].
    intros rl (r0 & r1 & r2 & r3 & FR & VR').
    eapply complete_bind; [apply (mul_limbs_complete _ _ _ _ _ _ _ _ _ _ _ _ _ _ _ FT FX FR)|]. intros zl (zw & FZ & LZ & VZ).
    rewrite <- VT, <- VX, <- VR', ET, VW, VR in VZ.
    assert (EZ : zw = [0; 0; 0; 0; 1; 0; 0; 0]).
    { apply limbs_unique; [exact LZ| | |].
      - clear - FZ. induction FZ as [|u z us zs [[H _] _] _ IH]; constructor; assumption.
      - repeat constructor; discriminate.
      - rewrite VZ. transitivity (2 ^ 256); [rewrite <- EQ; ring|reflexivity]. }
    subst zw. clear VZ LZ.
    repeat match goal with H : Forall2 (ok64 w) _ (_ :: _) |- _ => inversion H; subst; clear H end.
    match goal with H : Forall2 (ok64 w) _ [] |- _ => inversion H; subst; clear H end.
    assert (K : forall u z, ok64 w u z -> lc_val w (u64_lc one u) = fz z) by (intros u z [HU _]; apply (u64_lc_val FL one w w_one), HU).
    cbn [index nth_error unwrap].
    repeat (cstep; [first [erewrite K by eassumption; apply fz_0 | rewrite (lc_val_sub_v OL); erewrite K by eassumption; rewrite w_one, fz_1; ring]|] || cstep).
    auto.
  Qed.

  (** The whole circuit *)
  Lemma unpack_payload_complete payload bs : Forall2 (bit_has w) payload bs -> (928 <= length bs)%nat ->
    complete w (unpack_payload_bits one payload) (fun r => let '(h, c, header) := r in
      num_val w h = fz (height_of bs) /\ num_val w c = fz (chain_work_of bs) /\ Forall2 (bool_has w) header (header_of bs)).
  Proof.
    intros H HL. assert (H' : Forall2 (bool_has w) (map Is payload) bs) by (clear HL; induction H as [|? ? ? ? Hx HH IH]; constructor; auto).
    assert (HL' : (928 <= length (map Is payload))%nat) by (rewrite (F2_length _ _ _ H'); exact HL).
    unfold unpack_payload_bits. cbv zeta.
    eapply complete_bind; [apply slice_complete; lia|]. intros hb ->. eapply complete_bind; [apply slice_complete; lia|]. intros cb ->.
    eapply complete_bind; [apply slice_complete; lia|]. intros db ->.
    eapply complete_bind; [apply complete_namespace, bits_to_num_complete, F2_firstn, F2_skipn, H'|]. intros h [_ Hh].
    eapply complete_bind; [apply complete_namespace, bits_to_num_complete, F2_firstn, F2_skipn, H'|]. intros c [_ Hc].
    cstep. split; [exact Hh|]. split; [exact Hc|]. apply F2_firstn, F2_skipn, H'.
  Qed.
  Lemma header_links_complete prev_height height prev_header header zh zh' hs hs' : length hs = (8 * 80)%nat -> length hs' = (8 * 80)%nat ->
    num_val w prev_height = fz zh -> num_val w height = fz zh' -> zh' = zh + 1 ->
    Forall2 (bool_has w) prev_header hs -> Forall2 (bool_has w) header hs' ->
    bits_val (prev_hash_of hs') mod p = bits_val (double_sha256 hs) mod p ->
    complete w (header_links one prev_height height prev_header header) (fun _ => True).
  Proof.
    intros HL HL' E E' -> H H' HQ. unfold header_links.
    cstep. { rewrite (lc_val_sub_v OL), (lc_val_sub_lc OL), !(num_lc_val FL), E, E', w_one, (fz_add OL), fz_1. ring. }
    eapply complete_bind; [apply complete_namespace, (sha256d_complete _ hs 80); [rewrite (F2_length _ _ _ H); exact HL|exact H]|]. intros o Ho.
    eapply complete_bind; [apply slice_complete; rewrite (F2_length _ _ _ H'), HL'; cbn; lia|]. intros f ->.
    eapply complete_bind; [apply complete_namespace, (enforce_equality_complete _ _ (prev_hash_of hs') (double_sha256 hs))|].
    - rewrite (F2_length _ _ _ Ho), firstn_length, skipn_length, (F2_length _ _ _ H'), HL'. unfold double_sha256.
      rewrite (reverse_length _ 32) by apply SHA256_length. reflexivity.
    - apply F2_firstn, F2_skipn, bools_has_is, H'.
    - apply bools_has_is, Ho.
    - exact HQ.
    - intros ? _. eapply complete_bind; [apply complete_namespace, (sha256d_complete _ hs' 80); [rewrite (F2_length _ _ _ H'); exact HL'|exact H']|].
      intros ? _. cstep. exact I.
  Qed.
End Complete.

(** The mantissa and its bytes *)
Lemma skipn_add {A} a : forall b (l : list A), skipn b (skipn a l) = skipn (a + b) l.
Proof. induction a as [|a IH]; intros b [|x l]; try reflexivity; [destruct b; reflexivity|apply IH]. Qed.
Lemma field_length a n hs : (a + n <= length hs)%nat -> length (field_of a n hs) = n.
Proof. intro H. unfold field_of. rewrite firstn_length, skipn_length. lia. Qed.
Lemma field_split a n k hs : field_of a (n + k) hs = field_of a n hs ++ field_of (a + n) k hs.
Proof.
  unfold field_of. rewrite <- skipn_add. generalize (skipn a hs). clear. 
  induction n as [|n IH]; intros [|x l]; cbn [firstn skipn app Nat.add]; try reflexivity; [destruct k; reflexivity|f_equal; apply IH].
Qed.
Lemma mantissa_bytes hs : length hs = 640%nat ->
  mantissa_of hs = bits_val (field_of 576 8 hs) + 256 * bits_val (field_of 584 8 hs) + 65536 * bits_val (field_of 592 7 hs).
Proof.
  intro HL. unfold mantissa_of. change 23%nat with (8 + (8 + 7))%nat. rewrite (field_split 576 8 (8 + 7)). rewrite (field_split (576 + 8) 8 7).
  rewrite !bits_val_app, !field_length by lia. change (2 ^ Z.of_nat 8) with 256. cbn [Nat.add]. lia.
Qed.
Lemma third_byte hs : length hs = 640%nat -> negative_target hs = false -> bits_val (field_of 592 8 hs) = bits_val (field_of 592 7 hs).
Proof.
  intros HL HG. rewrite (field_split 592 7 1 hs : field_of 592 8 hs = _).
  assert (E : field_of (592 + 7) 1 hs = [false]).
  { unfold field_of, negative_target in *. revert HG. change (592 + 7)%nat with 599%nat. rewrite <- (firstn_skipn 599 hs) at 1.
    rewrite app_nth2; rewrite firstn_length, HL; [|cbn; lia]. change (599 - min 599 640)%nat with 0%nat.
    destruct (skipn 599 hs) as [|x l] eqn:E; [|cbn; congruence]. apply (f_equal (@length bool)) in E. rewrite skipn_length, HL in E. discriminate E. }
  rewrite E, bits_val_app. cbn [bits_val Z.b2z]. lia.
Qed.
Lemma byte_field a n hs : (n <= 8)%nat -> byte (bits_val (field_of a n hs)).
Proof.
  intro Hn. pose proof (field_range a n hs) as R. unfold byte. split; [apply R|]. eapply Z.lt_le_trans; [apply R|]. change 256 with (2 ^ 8). apply Z.pow_le_mono_r; lia.
Qed.

Section Top.
  Context {F : Field} {p : Z} {v : F -> Z} (FL : FieldLaws F p v) (one : Var).
  Let OL : OpsLaws F p v := fl_ops _ _ _ FL.
  Add Field Fg : (ffield OL).
  Variable w : assignment F.
  Hypothesis w_one : w one = fone.
  Lemma header_length bs : (928 <= length bs)%nat -> length (header_of bs) = 640%nat.
  Proof. intro H. unfold header_of. apply field_length. lia. Qed.
  Lemma target_bounds hs : length hs = 640%nat -> 4 <= size_of hs < 32 -> mantissa_of hs <> 0 ->
    256 <= target_of hs < 2 ^ 250 /\ target_of hs mod 2 = 0.
  Proof.
    intros HL HS HM. unfold target_of. pose proof (field_range 576 23 hs) as R. fold (mantissa_of hs) in R. change (Z.of_nat 23) with 23 in R.
    set (m := mantissa_of hs) in *. set (e := size_of hs - 4). replace (size_of hs - 3) with (1 + e) by (unfold e; lia).
    rewrite Z.pow_add_r, Z.pow_1_r by (unfold e; lia).
    assert (P : 1 <= 256 ^ e <= 256 ^ 27).
    { split; [change 1 with (256 ^ 0)|]; apply Z.pow_le_mono_r; unfold e; lia. }
    assert (Q : 256 ^ 27 = 2 ^ 216) by reflexivity. rewrite Q in P. split; [nia|].
    replace (m * (256 * 256 ^ e)) with (m * 128 * 256 ^ e * 2) by ring. apply Z.mod_mul. lia.
  Qed.
  (** An honest prover's witness satisfies the circuit if the bytes of the mantissa are palindromes *)
  Theorem bitcoin_complete old new ob nb : Forall2 (bit_has w) old ob -> Forall2 (bit_has w) new nb ->
    (928 <= length ob)%nat -> (928 <= length nb)%nat ->
    height_of nb = height_of ob + 1 ->
    bits_val (prev_hash_of (header_of nb)) mod p = bits_val (double_sha256 (header_of ob)) mod p ->
    negative_target (header_of nb) = false -> 4 <= size_of (header_of nb) < 32 -> mantissa_of (header_of nb) <> 0 ->
    mirrored (header_of nb) ->
    chain_work_of nb mod p = (chain_work_of ob + work_of (header_of nb)) mod p ->
    complete w (bitcoin_synthesize one old new) (fun _ => True).
  Proof.
    intros HO HN LO LN Hh Hq Hg Hs Hm Hr Hc. unfold bitcoin_synthesize. set (hs := header_of nb) in *.
    assert (HL : length hs = 640%nat) by (apply header_length, LN).
    eapply complete_bind; [apply complete_namespace, (unpack_payload_complete FL one w w_one old ob HO LO)|]. intros [[ph pc] phb] (Eph & Epc & Fph).
    eapply complete_bind; [apply complete_namespace, (unpack_payload_complete FL one w w_one new nb HN LN)|]. intros [[h c] hb] (Eh & Ec & Fh). fold hs in Fh.
    eapply complete_bind.
    { apply (header_links_complete FL one w w_one ph h phb hb (height_of ob) (height_of nb) (header_of ob) hs); try assumption. apply header_length, LO. }
    intros ? _.
    eapply complete_bind; [apply (from_header_complete w hb hs HL Fh); lia|]. intros cb (Fm & Fg & Fs & Es & Em).
    rewrite Hg in Fg. destruct Hr as (R0 & R1 & R2).
    eapply complete_bind.
    { apply complete_namespace. refine (unpack_complete FL one w w_one cb _ _ _ _ _ Fm Fg Fs _ Hs Es Em _ _ _ _ _ _ _).
      - apply field_length. lia.
      - apply byte_field. lia.
      - apply byte_field. lia.
      - apply byte_field. lia.
      - apply mantissa_bytes, HL.
      - apply mirror_same; [apply field_length; lia|exact R0].
      - apply mirror_same; [apply field_length; lia|exact R1].
      - rewrite <- (third_byte hs HL Hg). apply mirror_same; [apply field_length; lia|exact R2]. }
    intros [target tv] (ts & FT & LT & VT & ->).
    change (bits_val (field_of 576 23 hs) * 256 ^ (bits_val (field_of 600 8 hs) - 3)) with (target_of hs) in *.
    destruct (target_bounds hs HL Hs Hm) as [B1 B2].
    eapply complete_bind; [apply (header_work_complete FL one w w_one target ts (target_of hs)); try assumption; rewrite (F2_length _ _ _ FT); exact LT|].
    intros bw [_ Ew]. destruct (work_rest _ B1) as (_ & _ & _ & WE).
    cstep.
    - rewrite !(lc_val_sub_lc OL), !(num_lc_val FL), Ec, Epc, Ew, WE. fold (work_of hs). apply (fz_eq OL) in Hc. rewrite Hc, (fz_add OL). ring.
    - cstep. exact I.
  Qed.
  (** ... and never otherwise. *)
  Lemma unpack_payload_hints payload bs : Forall2 (bit_has w) payload bs ->
    sound w (unpack_payload_bits one payload) (fun r => (928 <= length bs)%nat /\ Forall2 (bool_has w) (snd r) (header_of bs)).
  Proof.
    intro H. assert (H' : Forall2 (bool_has w) (map Is payload) bs) by (induction H as [|? ? ? ? Hx HH IH]; constructor; auto).
    unfold unpack_payload_bits. cbv zeta.
    eapply sound_bind; [apply slice_sound|]. intros hb _. eapply sound_bind; [apply slice_sound|]. intros cb _.
    eapply sound_bind; [apply slice_sound|]. intros db [HL ->].
    eapply (sound_bind _ _ _ (fun _ => True)); [intros ? ? _ _; exact I|]. intros h _.
    eapply (sound_bind _ _ _ (fun _ => True)); [intros ? ? _ _; exact I|]. intros c _.
    sstep. split; [rewrite <- (F2_length _ _ _ H'); exact HL|]. apply F2_firstn, F2_skipn, H'.
  Qed.
  Lemma from_header_hints header hs : length hs = 640%nat -> Forall2 (bool_has w) header hs ->
    sound w (from_header header) (fun c => 4 <= size_of hs /\
      Forall2 (bool_has w) (cb_mantissa_bits c) (field_of 576 23 hs) /\ bool_has w (cb_mantissa_sign_bit c) (negative_target hs) /\
      Forall2 (bool_has w) (cb_size_bits c) (field_of 600 8 hs) /\ cb_size c = Some (size_of hs) /\
      cb_mantissa c = Some [bits_val (field_of 576 8 hs); bits_val (field_of 584 8 hs); bits_val (field_of 592 7 hs)]).
  Proof.
    intros HL H.
    destruct (Z_lt_le_dec (size_of hs) 4) as [H4|H4].
    - unfold from_header.
      eapply sound_bind; [apply slice_sound|]. intros m _. eapply sound_bind; [apply index_sound|]. intros g _.
      eapply sound_bind; [apply slice_sound|]. intros s [_ ->]. cbv zeta.
      change (firstn (8 * NBITS_START + 32 - (8 * NBITS_START + 24)) (skipn (8 * NBITS_START + 24) header)) with (firstn 8 (skipn 600 header)).
      assert (HS : Forall2 (bool_has w) (firstn 8 (skipn 600 header)) (field_of 600 8 hs)) by (apply F2_firstn, F2_skipn, H).
      rewrite (all_values_has w _ _ HS). cbn [option_map]. rewrite byte_of_bits_val. fold (size_of hs).
      sstep. match goal with H : _ = true |- _ => apply Z.leb_le in H end. exfalso. lia.
    - intros tr a E C. assert (HC := from_header_complete w header hs HL H H4).
      destruct (HC tr (Some (Ok a)) E) as (a' & Ea & _ & HQ); [|injection Ea as ->; split; [exact H4|exact HQ]].
      (* no wires are allocated *)
      clear - E. unfold from_header, slice, index in E. revert E.
      assert (N : forall A (m : CS F A), (exists r, m = Ret r) \/ m = Panic -> forall tr r, Exec m tr r -> tr = []).
      { intros A m [[r0 ->]| ->] tr0 r E; inversion E; reflexivity. }
      intro E. replace tr with (@nil (event F)); [constructor|]. symmetry. refine (N _ _ _ _ _ E). clear.
      unfold assert_, unwrap, bind, ret. 
      repeat (match goal with |- context [if ?c then _ else _] => destruct c | |- context [nth_error ?l ?n] => destruct (nth_error l n) end; cbn [pbind]); eauto.
  Qed.
  Lemma mantissa_unique a b c a' b' c' : byte a -> byte b -> byte c -> byte a' -> byte b' -> byte c' ->
    a + 256 * b + 65536 * c = a' + 256 * b' + 65536 * c' -> a = a' /\ b = b' /\ c = c'.
  Proof. unfold byte. lia. Qed.
  Theorem bitcoin_unmirrored old new ob nb : Forall2 (bit_has w) old ob -> Forall2 (bit_has w) new nb ->
    ~ mirrored (header_of nb) -> forall tr a, Exec (bitcoin_synthesize one old new) tr (Some (Ok a)) -> witnessed w tr -> ~ constraints_hold w tr.
  Proof.
    intros HO HN HR tr a E W C. apply HR. revert tr a E W C.
    enough (HH : hsound w (bitcoin_synthesize one old new) (fun _ => mirrored (header_of nb))) by (intros tr a E W C; exact (HH tr a E W C)).
    unfold bitcoin_synthesize.
    eapply hsound_bind; [apply hsound_any|]. intros [[ph pc] phb] _.
    eapply hsound_bind; [apply sound_hsound, sound_namespace, (unpack_payload_hints new nb HN)|]. intros [[h c] hb] [LN Fh]. cbn [snd] in Fh.
    eapply hsound_bind; [apply hsound_any|]. intros ? _. set (hs := header_of nb) in *.
    assert (HL : length hs = 640%nat) by (apply header_length, LN).
    eapply hsound_bind; [apply sound_hsound, (from_header_hints hb hs HL Fh)|]. intros cb (H4 & Fm & Fg & Fs & Es & Em).
    apply (hsound_bind w _ _ (fun _ => mirrored hs)); [|intros [target tv] HM; eapply hsound_bind; [apply hsound_any|]; intros bw _; intros ? ? _ _ _; exact HM].
    apply hsound_namespace. unfold unpack.
    eapply (hsound_bind w _ _ (fun r => negative_target hs = false /\ snd r = Some (target_bytes [bits_val (field_of 576 8 hs); bits_val (field_of 584 8 hs); bits_val (field_of 592 7 hs)] (size_of hs)))).
    { apply sound_hsound. unfold unpack_target. sstep.
      match goal with H : lc_val w _ = fzero |- _ => apply (lc1_zero FL one w w_one _ _ (bool_has_is w _ _ Fg)) in H end.
      rewrite Em, Es. sstep. sstep. sstep. eapply (sound_bind _ _ _ (fun _ => True)); [intros ? ? _ _; exact I|]. intros o _. sstep. auto. }
    intros [target tv] [HG Htv]. cbn [snd] in Htv. subst tv.
    eapply hsound_bind; [apply sound_hsound, (unpack_power_sound FL one w w_one cb (field_of 600 8 hs)), bools_has_is, Fs|]. intros pw [H32 _].
    fold (size_of hs) in H32. cbv zeta. rewrite Es, Em. cbn [option_map ok_or_missing rbind].
    eapply hsound_bind; [apply hsound_multiply|]. intros [[[xa xb] xc] o] HQ. intros ? ? _ _ _.
    rewrite u256_le, (double_and_add_val FL), (pow_256 FL), map_target_bytes, target_bytes_val in HQ by lia.
    assert (B0 := byte_field 576 8 hs ltac:(lia)). assert (B1 := byte_field 584 8 hs ltac:(lia)). assert (B2 := byte_field 592 7 hs ltac:(lia)).
    assert (B0' := mirror_byte (bits_val (field_of 576 8 hs))). assert (B1' := mirror_byte (bits_val (field_of 584 8 hs))). assert (B2' := mirror_byte (bits_val (field_of 592 7 hs))).
    set (m0 := bits_val (field_of 576 8 hs)) in *. set (m1 := bits_val (field_of 584 8 hs)) in *. set (m2 := bits_val (field_of 592 7 hs)) in *.
    cbn [le_val] in HQ. replace (m0 + 256 * (m1 + 256 * (m2 + 256 * 0))) with (m0 + 256 * m1 + 65536 * m2) in HQ by ring.
    rewrite (from_u64_256 FL) in HQ by (unfold byte in *; lia). rewrite <- (fz_mul OL) in HQ.
    assert (P : 1 <= 256 ^ (size_of hs - 3) <= 2 ^ 224).
    { split; [change 1 with (256 ^ 0)|change (2 ^ 224) with (256 ^ 28)]; apply Z.pow_le_mono_r; lia. }
    apply (small_inj FL) in HQ; [|unfold byte in *; nia|unfold byte in *; nia].
    apply Z.mul_reg_r in HQ; [|lia].
    destruct (mantissa_unique _ _ _ _ _ _ B0 B1 B2 B0' B1' B2' HQ) as (R0 & R1 & R2).
    split; [|split].
    - apply mirror_same; [apply field_length; lia|]. symmetry. exact R0.
    - apply mirror_same; [apply field_length; lia|]. symmetry. exact R1.
    - apply mirror_same; [apply field_length; lia|]. rewrite (third_byte hs HL HG). symmetry. exact R2.
  Qed.
End Top.
