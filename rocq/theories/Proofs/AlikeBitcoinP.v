(** The circuit of examples/bitcoin.rs makes the same calls whatever the values of the
    payloads' bits are, if the new payload has a target. *)
From Coq Require Import String List Bool Arith ZArith Lia.
From Verif Require Import Model.FieldTrait Model.Circuits Model.Num Model.Boolean Model.UInt Model.Sha256 Model.Recursion Model.Bitcoin
  Spec.UniformSpec Spec.BoolSpec Spec.BitcoinSpec Proofs.UnpackP Proofs.AlikeP Proofs.AlikeGadgetsP Proofs.AlikeShaP Proofs.BitcoinP Proofs.BitcoinHonestP.
Import ListNotations.
Open Scope list_scope. Open Scope nat_scope.
Local Notation length := List.length.
Local Notation isc := bool_is_constant.

Section Header.
  Context {F : Field}.
  Variables (inp : Prop) (V : Var -> Prop) (one : Var).
  Hypothesis V1 : V one.
  Hypothesis H256 : forall x : F, length (fe_bits x) = 256.
  Local Notation alike := (@alike F inp V _ _).
  Local Notation Rbool := (Rbool V).
  Local Notation Rnum := (@Rnum F V).
  Local Notation RW := (RW V).
  Local Notation RB := (Forall2 Rbool).

  Lemma A_slice {A B A' B'} (S : A -> B -> Prop) (R : A' -> B' -> Prop) l l' a b f g : Forall2 S l l' ->
    (b <= length l -> alike R (f (firstn (b - a) (skipn a l))) (g (firstn (b - a) (skipn a l')))) ->
    alike R (bind (slice l a b) f) (bind (slice l' a b) g).
  Proof.
    intros H H1. eapply (alike_bind inp V (fun x y => b <= length l /\ x = firstn (b - a) (skipn a l) /\ y = firstn (b - a) (skipn a l'))).
    - unfold slice. rewrite <- (AlikeShaP.F2_length _ _ _ H). astep; [tauto|]. astep. split; [|split; reflexivity].
      match goal with H : _ = true |- _ => apply Nat.leb_le in H; exact H end.
    - intros x y (Hb & -> & ->). apply H1, Hb.
  Qed.
  Lemma RLC_lc_from_bits bs bs' : RB bs bs' -> RLC V (lc_from_bits (F := F) one bs) (lc_from_bits one bs').
  Proof. intro H. apply RLC_add_bits; [exact V1|exact H|apply RLC_zero]. Qed.
  Lemma RLC_u64 u u' : RW u u' -> RLC V (u64_lc (F := F) one u) (u64_lc one u').
  Proof. intro H. apply RLC_add_bits; [exact V1|exact H|apply RLC_zero]. Qed.
  Lemma RLC_add_clc (l l' : LC F) c m m' : RLC V l l' -> RLC V m m' -> RLC V (lc_add_clc l c m) (lc_add_clc l' c m').
  Proof.
    intros [<- H] [<- Hm]. split; [reflexivity|]. unfold lc_add_clc. revert l H. induction Hm; intros l0 H0; cbn [fold_left]; [exact H0|].
    apply IHHm. apply Forall_app. split; [exact H0|]. constructor; [exact H|constructor].
  Qed.
  Ltac lcs := repeat first [apply RLC_sub_v | apply RLC_sub_lc | apply RLC_add_clc | apply RLC_u64 | apply RLC_lc_from_bits | solve [rel] | assumption | reflexivity].

  Lemma A_bytes_to_bits data data' n : alike RB (bytes_to_bits data n) (bytes_to_bits data' n).
  Proof.
    unfold bytes_to_bits. apply (alike_mapM inp V eq); [|apply Forall2_same; reflexivity]. intros [i j] ? <-. astep. astep. rel.
  Qed.
  Lemma RLC_equality a a' : RB a a' -> forall b b' l l' m m' (c : Coeff F), RB b b' -> RLC V l l' -> RLC V m m' ->
    RLC V (fst (equality_lcs one l m c a b)) (fst (equality_lcs one l' m' c a' b')) /\ RLC V (snd (equality_lcs one l m c a b)) (snd (equality_lcs one l' m' c a' b')).
  Proof.
    induction 1 as [|x x' a a' Hx H IH]; intros b b' l l' m m' c Hb Hl Hm; cbn [equality_lcs]; [split; assumption|].
    destruct Hb as [|y y' b b' Hy Hb]; [split; assumption|]. apply IH; [exact Hb| |]; apply RLC_add_lc; try assumption; apply RLC_bool; assumption.
  Qed.
  Lemma A_enforce_equality a a' b b' : RB a a' -> RB b b' -> alike (fun _ _ => True) (enforce_equality one a b) (enforce_equality one a' b').
  Proof.
    intros H H1. unfold enforce_equality. rewrite <- (AlikeShaP.F2_length _ _ _ H), <- (AlikeShaP.F2_length _ _ _ H1). astep; [tauto|].
    destruct (RLC_equality a a' H b b' lc_zero lc_zero lc_zero lc_zero COne H1 (RLC_zero V) (RLC_zero V)) as [X Y].
    destruct (equality_lcs one lc_zero lc_zero COne a b), (equality_lcs one lc_zero lc_zero COne a' b'). cbn [fst snd] in X, Y. apply alike_lc, RLC_sub_lc; assumption.
  Qed.
  Lemma A_bits_to_num b b' : RB b b' -> alike Rnum (bits_to_num one b) (bits_to_num one b').
  Proof.
    intro H. unfold bits_to_num. cbv zeta. astep. apply alike_lcb; [apply RLC_sub_lc; [apply RLC_lc_from_bits, H|rel]|]. astep. rel.
  Qed.
  Definition RP (r r' : AllocatedNum F * AllocatedNum F * list Boolean) : Prop :=
    Rnum (fst (fst r)) (fst (fst r')) /\ Rnum (snd (fst r)) (snd (fst r')) /\ RB (snd r) (snd r').
  Lemma A_payload l l' : Forall2 (same_bit V) l l' ->
    alike (fun r r' => RP r r' /\ noconsts (snd r) /\ length (snd r) = 640 /\ snd r' = map Is (firstn 640 (skipn 288 l'))) (unpack_payload_bits one l) (unpack_payload_bits one l').
  Proof.
    intro H. unfold unpack_payload_bits. cbv zeta.
    assert (HI : RB (map Is l) (map Is l')) by (eapply F2_map; [|exact H]; intros a b Hab; exact Hab).
    apply (A_slice Rbool); [exact HI|]. intros _. apply (A_slice Rbool); [exact HI|]. intros _. apply (A_slice Rbool); [exact HI|]. intro HL.
    eapply alike_nsb; [apply A_bits_to_num, AlikeShaP.F2_firstn, AlikeShaP.F2_skipn, HI|]. intros h h' Hh.
    eapply alike_nsb; [apply A_bits_to_num, AlikeShaP.F2_firstn, AlikeShaP.F2_skipn, HI|]. intros c c' Hc. astep. cbn [fst snd].
    split; [split; [exact Hh|split; [exact Hc|apply AlikeShaP.F2_firstn, AlikeShaP.F2_skipn, HI]]|].
    split; [|split].
    - apply Fa_firstn, Fa_skipn. apply Forall_forall. intros x Hx. apply in_map_iff in Hx. destruct Hx as (y & <- & _). reflexivity.
    - rewrite firstn_length, skipn_length. change (8 * (4 + 32 + 80)) with 928 in *. change (8 * (4 + 32)) with 288 in *. lia.
    - change (8 * (4 + 32 + 80) - 8 * (4 + 32)) with 640. change (8 * (4 + 32)) with 288. rewrite skipn_map, firstn_map. reflexivity.
  Qed.

  (** *** SHA-256 twice *)
  Lemma flip_length {A} (l : list A) n : length l = 8 * n -> length (flip_bytes l) = 8 * n.
  Proof.
    intro H. rewrite (flip_reverse l n H). unfold reverse_bytes. rewrite H, Nat.mul_comm, Nat.div_mul by lia. rewrite Nat.mul_comm in H.
    clear -H. revert l H. induction n as [|n IH]; intros l H; [reflexivity|]. cbn [bytes_of flat_map]. rewrite app_length, rev_length, firstn_length, IH; [lia|]. rewrite skipn_length. lia.
  Qed.
  Lemma flip_all {A} (P : A -> Prop) l : Forall P l -> Forall P (flip_bytes l).
  Proof.
    intro H. unfold flip_bytes, Sha256.chunks. induction (seq 0 _) as [|i is IH]; cbn [map flat_map]; [constructor|]. apply Forall_app. split; [apply Fa_rev, Fa_firstn, Fa_skipn, H|exact IH].
  Qed.
  Lemma A_sha256d l l' : RB l l' -> noconsts l -> length l = 640 -> alike RB (sha256d one l) (sha256d one l').
  Proof.
    intros H HN HL. unfold sha256d. eapply alike_nsb; [apply A_sha256; [exact V1|apply F2_flip, H|]|].
    - apply (pure_same (fun b => isc b = false) _ 20); [intros m Hm; right; exact Hm|apply flip_all, HN|]. rewrite (flip_length l 80 HL). reflexivity.
    - intros m m' (Hm & _ & HP). eapply alike_nsb; [apply A_sha256; [exact V1|exact Hm|exact HP]|]. intros r r' (Hr & _). astep. apply F2_flip, Hr.
  Qed.
  Lemma A_links ph ph' h h' pb pb' hb hb' : Rnum ph ph' -> Rnum h h' -> RB pb pb' -> noconsts pb -> length pb = 640 -> RB hb hb' -> noconsts hb -> length hb = 640 ->
    alike (fun _ _ => True) (header_links one ph h pb hb) (header_links one ph' h' pb' hb').
  Proof.
    intros. unfold header_links. astep. eapply alike_nsb; [apply A_sha256d; assumption|]. intros s s' Hs.
    apply (A_slice Rbool); [assumption|]. intros _. eapply alike_nsb; [apply A_enforce_equality; [apply AlikeShaP.F2_firstn, AlikeShaP.F2_skipn; assumption|exact Hs]|]. intros ? ? _.
    eapply alike_nsb; [apply A_sha256d; assumption|]. intros ? ? _. astep. exact I.
  Qed.

  (** *** The target.  In the second run the header's bits are known. *)
  Definition RCB (hs : list bool) (c c' : CompactBits) : Prop :=
    RB (cb_mantissa_bits c) (cb_mantissa_bits c') /\ Rbool (cb_mantissa_sign_bit c) (cb_mantissa_sign_bit c') /\ RB (cb_size_bits c) (cb_size_bits c') /\
    cb_size c' = Some (size_of hs) /\ cb_mantissa c' = Some [bits_val (field_of 576 8 hs); bits_val (field_of 584 8 hs); bits_val (field_of 592 7 hs)].
  Lemma all_values_known bits bs : map bit_value bits = map Some bs -> all_values (map Is bits) = Some bs.
  Proof.
    revert bs. induction bits as [|b bits IH]; intros [|x bs] H; try discriminate H; [reflexivity|]. cbn [map] in H. injection H as H1 H2. cbn [map all_values bool_value]. rewrite H1, (IH _ H2). reflexivity.
  Qed.
  Lemma mapeq_first {A B C} (f : A -> C) (g : B -> C) l m a n : map f l = map g m -> map f (firstn n (skipn a l)) = map g (firstn n (skipn a m)).
  Proof. intro H. rewrite <- !firstn_map, <- !skipn_map, H. reflexivity. Qed.
  Lemma A_from_header hb hb' bits hs : RB hb hb' -> hb' = map Is bits -> map bit_value bits = map Some hs -> length hs = 640 -> (4 <= size_of hs)%Z ->
    alike (RCB hs) (from_header hb) (from_header hb').
  Proof.
    intros H -> HB HL H4. unfold from_header.
    apply (A_slice Rbool); [exact H|]. intros _. apply (index_alike inp V Rbool); [exact H|]. intros g g' Hg. apply (A_slice Rbool); [exact H|]. intros _. cbv zeta.
    change (8 * NBITS_START + 23 - 8 * NBITS_START) with 23. change (8 * NBITS_START + 32 - (8 * NBITS_START + 24)) with 8.
    change (8 * NBITS_START + 24) with 600. change (8 * NBITS_START) with 576.
    assert (E1 : all_values (firstn 23 (skipn 576 (map Is bits))) = Some (field_of 576 23 hs)).
    { rewrite skipn_map, firstn_map. apply all_values_known, mapeq_first, HB. }
    assert (E2 : all_values (firstn 8 (skipn 600 (map Is bits))) = Some (field_of 600 8 hs)).
    { rewrite skipn_map, firstn_map. apply all_values_known, mapeq_first, HB. }
    rewrite E1, E2. cbn [option_map]. rewrite byte_of_bits_val. fold (size_of hs).
    apply alike_assertb; [intros _; apply Z.leb_le, H4|]. intros _. astep. unfold RCB. cbn [cb_mantissa_bits cb_mantissa_sign_bit cb_size_bits cb_size cb_mantissa].
    split; [apply AlikeShaP.F2_firstn, AlikeShaP.F2_skipn, H|]. split; [exact Hg|]. split; [apply AlikeShaP.F2_firstn, AlikeShaP.F2_skipn, H|]. split; [reflexivity|]. f_equal.
    unfold Sha256.chunks. replace (length (field_of 576 23 hs)) with 23 by (symmetry; apply field_length; lia).
    change ((23 + (8 - 1)) / 8) with 3. cbn [seq map]. rewrite !byte_of_bits_val. unfold field_of.
    assert (G : forall a n k j (l : list bool), (j + n <= k)%nat -> firstn n (skipn j (firstn k (skipn a l))) = firstn n (skipn (a + j) l)).
    { intros a n k j l Hk. rewrite skipn_firstn_comm, firstn_firstn, skipn_add. f_equal. lia. }
    rewrite (G 576%nat 8%nat 23%nat (8 * 0)%nat), (G 576%nat 8%nat 23%nat (8 * 1)%nat) by (cbn; lia).
    rewrite skipn_firstn_comm, firstn_firstn, skipn_add. reflexivity.
  Qed.
  Definition tbytes (hs : list bool) : list Z := target_bytes [bits_val (field_of 576 8 hs); bits_val (field_of 584 8 hs); bits_val (field_of 592 7 hs)] (size_of hs).
  Lemma A_unpack_target hs c c' : RCB hs c c' -> (4 <= size_of hs < 32)%Z ->
    alike (fun r r' => RB (fst r) (fst r') /\ snd r' = Some (tbytes hs)) (unpack_target one c) (unpack_target one c').
  Proof.
    intros (H1 & H2 & H3 & H4 & H5) HS. unfold unpack_target. astep. rewrite H4, H5. fold (tbytes hs).
    eapply (alike_bind inp V (fun _ v' => v' = Some (tbytes hs))).
    - replace ((3 <=? size_of hs)%Z && (size_of hs <=? 32)%Z) with true by (symmetry; apply andb_true_iff; split; apply Z.leb_le; lia).
      destruct (cb_mantissa c); [|apply alike_ret; reflexivity]. destruct (cb_size c); [|apply alike_ret; reflexivity]. astep; [reflexivity|]. astep. reflexivity.
    - intros tv tv' ->. eapply alike_nsb; [apply A_bytes_to_bits|]. intros t t' Ht. astep. cbn [fst snd]. split; [exact Ht|reflexivity].
  Qed.
  Lemma A_pow_step base base' n n' b b' : Rnum base base' -> Rnum n n' -> Rbool b b' -> alike Rnum (pow_step one base n b) (pow_step one base' n' b').
  Proof.
    intros. unfold pow_step. astep. eapply alike_nsb; [apply A_num_mul; assumption|]. intros sq sq' Hsq. eapply alike_nsb; [apply A_num_mul; assumption|]. intros m m' Hm. repeat astep. rel.
  Qed.
  Lemma A_unpack_power hs c c' : RCB hs c c' -> alike Rnum (unpack_power one c) (unpack_power one c').
  Proof.
    intros (H1 & H2 & H3 & H4 & H5). unfold unpack_power. astep. astep. rewrite <- (AlikeShaP.F2_length _ _ _ H3). astep; [tauto|].
    apply (index_alike inp V Rbool); [exact H3|]. intros b5 b5' B5. astep. apply (index_alike inp V Rbool); [exact H3|]. intros b6 b6' B6. astep.
    apply (index_alike inp V Rbool); [exact H3|]. intros b7 b7' B7. astep. astep.
    apply (alike_foldM inp V Rbool Rnum); [|apply AlikeShaP.F2_skipn, F2_rev, H3|rel]. intros a a' z y Ha Hz. apply A_pow_step; [rel|assumption|assumption].
  Qed.
  Lemma A_unpack_cb hs c c' : RCB hs c c' -> (4 <= size_of hs < 32)%Z ->
    alike (fun r r' => RB (fst r) (fst r') /\ snd r' = Some (u256_from_le (tbytes hs))) (unpack one c) (unpack one c').
  Proof.
    intros H HS. unfold unpack. eapply alike_bind; [apply (A_unpack_target hs); assumption|]. intros [t v] [t' v'] [Ht Hv]. cbn [fst snd] in Ht, Hv. subst v'.
    eapply alike_bind; [apply (A_unpack_power hs); assumption|]. intros n n' Hn. cbv zeta. destruct H as (H1 & H2 & H3 & H4 & H5).
    astep. astep. apply alike_lcb; [lcs|]. apply alike_lcb; [lcs|]. astep. astep. astep. astep. cbn [fst snd option_map]. split; [exact Ht|reflexivity].
  Qed.

  (** *** The work *)
  Lemma A_from_target f f' v t : f' t <> None -> alike (fun _ _ => True) (from_target (F := F) f v) (from_target f' (Some t)).
  Proof.
    intro H. destruct (f' t) as [r'|] eqn:E; [|congruence]. unfold from_target. rewrite E. destruct v as [x|]; [|apply alike_ret; exact I].
    destruct (f x); [apply alike_ret; exact I|apply al_panic].
  Qed.
  Lemma work_known t : (256 <= t < 2 ^ 250)%Z -> block_work_of (F := F) t <> None /\ remainder_of (F := F) t <> None.
  Proof.
    intro H. unfold block_work_of, remainder_of, u256_add, U256_MAX.
    assert (E : (2 ^ 250 < 2 ^ 256 - 1)%Z) by reflexivity.
    replace (t + 1 <=? 2 ^ 256 - 1)%Z with true by (symmetry; apply Z.leb_le; lia). cbn [obind].
    assert (Q : ((2 ^ 256 - 1 - t) / (t + 1) + 1 <= 2 ^ 256 - 1)%Z).
    { assert ((2 ^ 256 - 1 - t) / (t + 1) < 2 ^ 256 - 1)%Z; [|lia]. apply Z.div_lt_upper_bound; [lia|]. nia. }
    apply Z.leb_le in Q. rewrite Q. split; discriminate.
  Qed.
  Lemma A_from_bits n l l' : RB l l' -> alike RW (u_from_bits n l) (u_from_bits n l').
  Proof. intro H. unfold u_from_bits. rewrite <- (AlikeShaP.F2_length _ _ _ H). astep; [tauto|]. astep. exact H. Qed.
  Lemma A_limbs l l' : RB l l' -> alike (Forall2 RW) (four_limbs l) (four_limbs l').
  Proof.
    intro H. unfold four_limbs. apply (alike_mapM inp V eq); [|apply Forall2_same; reflexivity]. intros i ? <-.
    apply (A_slice Rbool); [exact H|]. intros _. apply A_from_bits, AlikeShaP.F2_firstn, AlikeShaP.F2_skipn, H.
  Qed.
  Lemma A_alloc_bits vs vs' : length vs = length vs' -> alike RB (alloc_bits vs) (alloc_bits vs').
  Proof.
    intro H. unfold alloc_bits. apply (alike_mapM inp V (fun _ _ => True)).
    - intros v v' _. astep. astep. rel.
    - revert vs' H. induction vs as [|v vs IH]; intros [|v' vs'] H; try discriminate H; constructor; auto.
  Qed.
  Lemma hint_length n v : length (hint_bits n v) = n.
  Proof. unfold hint_bits. destruct v; [rewrite map_length; apply AlikeShaP.le_bits_length|apply repeat_length]. Qed.
  Lemma A_mul_acc2 a a' b b' c c' d d' : RW a a' -> RW b b' -> RW c c' -> RW d d' ->
    alike (fun r r' => RW (fst r) (fst r') /\ RW (snd r) (snd r')) (u64_mul_acc2 one a b c d) (u64_mul_acc2 one a' b' c' d').
  Proof.
    intros. unfold u64_mul_acc2. cbv zeta. eapply alike_bind; [apply A_alloc_bits; rewrite !hint_length; reflexivity|]. intros r r' Hr.
    eapply alike_bind; [apply A_from_bits, AlikeShaP.F2_firstn, Hr|]. intros lo lo' Hlo. eapply alike_bind; [apply A_from_bits, AlikeShaP.F2_firstn, AlikeShaP.F2_skipn, Hr|]. intros hi hi' Hhi.
    astep. eapply (alike_unwrapb inp V eq); [intros q Hq; exists q; split; [exact Hq|reflexivity]|]. intros q ? <-.
    apply alike_lcb; [lcs|]. apply alike_lcb; [lcs|]. apply alike_lcb; [lcs|]. astep. split; assumption.
  Qed.
  Lemma F2_set {A B} (R : A -> B -> Prop) l l' i x x' : Forall2 R l l' -> R x x' -> Forall2 R (set_nth l i x) (set_nth l' i x').
  Proof. intros H Hx. unfold set_nth. apply Forall2_app; [apply AlikeShaP.F2_firstn, H|]. constructor; [exact Hx|apply AlikeShaP.F2_skipn, H]. Qed.
  Lemma RW_const n z : RW (u_constant n z) (u_constant n z).
  Proof. unfold u_constant, AlikeShaP.RW. cbn [u_bits]. apply Forall2_same. intros x Hx. apply in_map_iff in Hx. destruct Hx as (y & <- & _). constructor. Qed.
  Lemma A_mul_limbs t t' x x' w w' : Forall2 RW t t' -> Forall2 RW x x' -> Forall2 RW w w' -> alike (Forall2 RW) (mul_limbs one t x w) (mul_limbs one t' x' w').
  Proof.
    intros Ht Hx Hw. unfold mul_limbs. astep. apply (alike_fold1 inp V (Forall2 RW)); [|exact Hw]. intros a a' j _ Ha. unfold mul_outer.
    eapply alike_bind; [apply (alike_fold1 inp V (fun r r' => Forall2 RW (fst r) (fst r') /\ RW (snd r) (snd r'))); [|split; [exact Ha|apply RW_const]]|].
    - intros [z k] [z' k'] i _ [Hz Hk]. cbn [fst snd] in Hz, Hk. unfold mul_inner.
      apply (index_alike inp V RW); [exact Ht|]. intros u u' Hu. apply (index_alike inp V RW); [exact Hx|]. intros y y' Hy. apply (index_alike inp V RW); [exact Hz|]. intros q q' Hq.
      eapply alike_nsb; [apply A_mul_acc2; assumption|]. intros [lo hi] [lo' hi'] [Hlo Hhi]. cbn [fst snd] in Hlo, Hhi. astep. split; [apply F2_set; assumption|exact Hhi].
    - intros [z k] [z' k'] [Hz Hk]. cbn [fst snd] in Hz, Hk. astep. apply F2_set; assumption.
  Qed.
  Lemma A_header_work tg tg' v t : RB tg tg' -> (256 <= t < 2 ^ 250)%Z -> alike Rnum (header_work one tg v) (header_work one tg' (Some t)).
  Proof.
    intros H Ht. destruct (work_known t Ht) as [W1 W2]. unfold header_work. cbv zeta.
    eapply alike_bind; [apply A_limbs; constructor; [constructor|apply AlikeShaP.F2_skipn, H]|]. intros tl tl' Htl.
    eapply alike_bind; [apply A_from_target, W1|]. intros wv wv' _. astep.
    eapply alike_nsb; [apply (A_unpack inp V one V1); [rel|exact H256]|]. intros wb wb' [Hwb _].
    eapply alike_bind; [apply A_limbs; eapply F2_map; [|exact Hwb]; intros a b Hab; exact Hab|]. intros wl wl' Hwl.
    eapply alike_bind; [apply A_from_target, W2|]. intros rv rv' _. astep.
    eapply alike_nsb; [apply (A_unpack inp V one V1); [rel|exact H256]|]. intros rb rb' [Hrb _].
    eapply alike_bind; [apply A_limbs; eapply F2_map; [|exact Hrb]; intros a b Hab; exact Hab|]. intros rl rl' Hrl.
    eapply alike_bind; [apply A_mul_limbs; [exact Htl|exact Hwl|apply Forall2_app; [exact Hrl|repeat constructor; apply RW_const]]|]. intros w w' Hw.
    do 8 (apply (index_alike inp V RW); [exact Hw|]; intros ? ? ?; apply alike_lcb; [lcs|]). astep. rel.
  Qed.

  Lemma target_known hs : length hs = 640 -> (4 <= size_of hs < 32)%Z -> mantissa_of hs <> 0%Z -> (256 <= u256_from_le (tbytes hs) < 2 ^ 250)%Z.
  Proof.
    intros HL HS HM. rewrite u256_le. unfold tbytes. rewrite target_bytes_val by exact HS. rewrite <- (mantissa_bytes hs HL). apply (target_bounds hs HL HS HM).
  Qed.
  Theorem A_bitcoin old new old' new' bits : Forall2 (same_bit V) old old' -> Forall2 (same_bit V) new new' -> map bit_value new' = map Some bits -> has_target bits ->
    alike (fun _ _ => True) (bitcoin_synthesize one old new) (bitcoin_synthesize one old' new').
  Proof.
    intros HO HN HB [HS HM]. unfold bitcoin_synthesize.
    eapply alike_nsb; [apply A_payload, HO|]. intros [[ph pc] pb] [[ph' pc'] pb'] ((R1 & R2 & R3) & N1 & L1 & _). cbn [fst snd] in *.
    eapply alike_nsb; [apply A_payload, HN|]. intros [[h c] hb] [[h' c'] hb'] ((Q1 & Q2 & Q3) & N2 & L2 & E2). cbn [fst snd] in *.
    eapply alike_bind; [apply A_links; assumption|]. intros ? ? _.
    assert (KB : map bit_value (firstn 640 (skipn 288 new')) = map Some (header_of bits)) by (apply mapeq_first, HB).
    assert (HL : length (header_of bits) = 640).
    { rewrite <- (map_length Some), <- KB, map_length. rewrite <- (map_length Is), <- E2, <- (AlikeShaP.F2_length _ _ _ Q3). exact L2. }
    eapply alike_bind; [apply (A_from_header hb hb' _ (header_of bits) Q3 E2 KB HL); apply HS|]. intros cb cb' Hcb.
    eapply alike_nsb; [apply (A_unpack_cb (header_of bits)); assumption|]. intros [tg tv] [tg' tv'] [Htg Htv]. cbn [fst snd] in Htg, Htv. subst tv'.
    eapply alike_bind; [apply A_header_work; [exact Htg|apply target_known; assumption]|]. intros bw bw' Hbw. astep. astep. exact I.
  Qed.
End Header.
Theorem bitcoin_uniform {F : Field} : (forall x : F, length (fe_bits x) = 256) -> uniform has_target (bitcoin_circuit (F := F)).
Proof. intros H256 V one old new old' new' bits V1 HO HN _ HB HT. exact (A_bitcoin False V one V1 H256 _ _ _ _ bits HO HN HB HT). Qed.
