(** Exactly when an honest prover's values satisfy the header circuit of
    examples/bitcoin.rs, and when its run does not panic. *)
From Coq Require Import String List Bool ZArith Lia Ring Field.
From Verif Require Import Model.FieldTrait Model.Circuits Model.Num Model.Boolean Model.UInt Model.Sha256 Model.Bitcoin
  Spec.FieldLaws Spec.CircuitSpec Spec.NumSpec Spec.BoolSpec Spec.UIntSpec Spec.Sha256Spec Spec.BitcoinSpec
  Proofs.FieldGen Proofs.ZtoF Proofs.CircuitP Proofs.LcP Proofs.NumP Proofs.BoolP Proofs.UnpackP Proofs.AlwaysP
  Proofs.WordP Proofs.UIntP Proofs.UIntArithP Proofs.Sha256P Proofs.BitcoinP Proofs.BitcoinHonestP.
Import ListNotations.
Open Scope Z_scope. Open Scope list_scope.
Local Notation length := List.length.

Lemma target_bytes_32 m0 m1 m2 : le_val (target_bytes [m0; m1; m2] 32) = (m0 + 256 * m1 + 65536 * m2) * 256 ^ 29.
Proof.
  match goal with |- context [256 ^ ?e] => let x := eval vm_compute in (256 ^ e) in change (256 ^ e) with x end.
  unfold target_bytes. cbn [map seq Z.of_nat Pos.of_succ_nat Pos.succ Z.eqb Pos.eqb Z.sub Z.add Z.opp Z.pos_sub Pos.pred_double Z.succ_double Z.pred_double Z.double nth le_val]. ring.
Qed.
Section Exact.
  Context {F : Field} {p : Z} {v : F -> Z} (FL : FieldLaws F p v) (one : Var).
  Let OL : OpsLaws F p v := fl_ops _ _ _ FL.
  Add Field Fx : (ffield OL).
  Variable w : assignment F.
  Hypothesis w_one : w one = fone.

  Lemma always_any {A} (m : CS F A) : always m (fun _ => True).
  Proof. intros tr a _. exact I. Qed.
  Lemma always_slice {A} (l : list A) a b : always (slice (F := F) l a b) (fun r => (b <= length l)%nat /\ r = firstn (b - a) (skipn a l)).
  Proof. unfold slice. apply always_assert_k. intro H. apply always_ret. split; [apply Nat.leb_le; exact H|reflexivity]. Qed.
  Lemma complete_hsound {A} (m : CS F A) Q : complete w m Q -> hsound w m Q.
  Proof. intros H tr a E W _. destruct (H tr _ E W) as (a' & Ea & _ & HQ). injection Ea as ->. exact HQ. Qed.
  Lemma silent_always {A} (m : CS F A) Q : sound w m Q -> (forall tr r, Exec m tr r -> tr = []) -> always m Q.
  Proof. intros H N tr a E. apply (H tr a E). rewrite (N _ _ E). constructor. Qed.
  Lemma from_header_silent header tr r : Exec (from_header (F := F) header) tr r -> tr = [].
  Proof.
    assert (N : forall A (m : CS F A), (exists r, m = Ret r) \/ m = Panic -> forall tr r, Exec m tr r -> tr = []).
    { intros A m [[r0 ->]| ->] tr0 r1 E; inversion E; reflexivity. }
    apply N. unfold from_header, slice, index, assert_, unwrap, bind, ret.
    repeat (match goal with |- context [if ?c then _ else _] => destruct c | |- context [nth_error ?l ?n] => destruct (nth_error l n) end; cbn [pbind]); eauto.
  Qed.
  Lemma header_read payload bs : Forall2 (bit_has w) payload bs ->
    always (unpack_payload_bits (F := F) one payload) (fun r => (928 <= length bs)%nat /\ Forall2 (bool_has w) (snd r) (header_of bs)).
  Proof.
    intro H. assert (H' : Forall2 (bool_has w) (map Is payload) bs) by (induction H as [|? ? ? ? Hx HH IH]; constructor; auto).
    unfold unpack_payload_bits. cbv zeta.
    eapply always_bind; [apply always_slice|]. intros hb _. eapply always_bind; [apply always_slice|]. intros cb _.
    eapply always_bind; [apply always_slice|]. intros db [HL ->].
    eapply always_bind; [apply always_any|]. intros h _. eapply always_bind; [apply always_any|]. intros c _.
    apply always_ret. split; [rewrite <- (F2_length _ _ _ H'); exact HL|]. apply F2_firstn, F2_skipn, H'.
  Qed.
  Lemma target_known self m s : cb_mantissa self = Some m -> cb_size self = Some s ->
    always (unpack (F := F) one self) (fun r => s <= 32 /\ snd r = Some (u256_from_le (target_bytes m s))).
  Proof.
    intros Em Es. unfold unpack.
    eapply (always_bind _ _ (fun r => s <= 32 /\ snd r = Some (target_bytes m s))).
    { unfold unpack_target. eapply always_bind; [apply always_any|]. intros _ _. rewrite Em, Es.
      eapply (always_bind _ _ (fun r => s <= 32 /\ r = Some (target_bytes m s))).
      - apply always_assert_k. intro H. apply andb_prop in H as [_ H]. apply Z.leb_le in H. apply always_ret. auto.
      - intros r (H & ->). eapply always_bind; [apply always_any|]. intros o _. apply always_ret. auto. }
    intros [target tv] (H & E). cbn [snd] in E. subst tv.
    eapply always_bind; [apply always_any|]. intros pw _. cbv zeta.
    eapply always_bind; [apply always_any|]. intros [[[? ?] ?] ?] _. eapply always_bind; [apply always_any|]. intros [[[? ?] ?] ?] _.
    do 5 (eapply always_bind; [apply always_any|]; intros _ _). apply always_ret. cbn [snd option_map]. auto.
  Qed.
  Lemma work_defined target T : always (header_work (F := F) one target (Some T)) (fun _ => block_work_of (F := F) T <> None).
  Proof.
    unfold header_work. cbv zeta. eapply always_bind; [apply always_any|]. intros tl _. unfold from_target at 1.
    destruct (block_work_of T) as [x|] eqn:E.
    - intros tr a _ X. discriminate X.
    - eapply (always_bind _ _ (fun _ => False)); [|intros ? []]. unfold unwrap. intros tr a X. inversion X.
  Qed.
  Lemma no_work : block_work_of (F := F) 0 = None.
  Proof. unfold block_work_of, u256_add. change (0 + 1 <=? U256_MAX) with true. cbn [obind]. rewrite Z.sub_0_r. change (0 + 1) with 1. rewrite Z.div_1_r. reflexivity. Qed.

  (** The circuit with known payloads runs to its end only if there is a target *)
  Theorem bitcoin_runs old new ob nb : Forall2 (bit_has w) old ob -> Forall2 (bit_has w) new nb ->
    always (bitcoin_synthesize (F := F) one old new) (fun _ => (928 <= length ob)%nat /\ (928 <= length nb)%nat /\
      4 <= size_of (header_of nb) <= 32 /\ mantissa_of (header_of nb) <> 0).
  Proof.
    intros HO HN. unfold bitcoin_synthesize.
    eapply always_bind; [apply always_namespace, (header_read old ob HO)|]. intros [[ph pc] phb] [LO _].
    eapply always_bind; [apply always_namespace, (header_read new nb HN)|]. intros [[h c] hb] [LN Fh]. cbn [snd] in Fh.
    eapply always_bind; [apply always_any|]. intros _ _. set (hs := header_of nb) in *.
    assert (HL : length hs = 640%nat) by (apply header_length, LN).
    eapply always_bind; [apply (silent_always _ _ (from_header_hints w hb hs HL Fh)), from_header_silent|]. intros cb (H4 & _ & _ & _ & Es & Em).
    eapply always_bind; [apply always_namespace, (target_known cb _ _ Em Es)|]. intros [target tv] [H32 E]. cbn [snd] in E. subst tv.
    eapply always_bind; [apply work_defined|]. intros bw HW.
    eapply always_bind; [apply always_any|]. intros _ _. apply always_ret.
    split; [exact LO|]. split; [exact LN|]. split; [auto|]. intro Z0. apply HW. rewrite u256_le.
    replace (le_val _) with 0; [apply no_work|]. rewrite (mantissa_bytes hs HL) in Z0.
    assert (S : size_of hs < 32 \/ size_of hs = 32) by lia. destruct S as [S|S].
    - rewrite target_bytes_val by lia. rewrite Z0. reflexivity.
    - rewrite S, target_bytes_32, Z0. reflexivity.
  Qed.

  Lemma work_hinted target T : 256 <= T < 2 ^ 250 -> hsound w (header_work one target (Some T)) (fun n => num_val w n = fz (work_for T)).
  Proof.
    intro HT. destruct (work_hints FL T HT) as [HW HM]. unfold header_work. cbv zeta. unfold from_target. rewrite HW, HM. cbn [unwrap].
    eapply hsound_bind; [apply hsound_any|]. intros tl _.
    eapply (hsound_bind w _ _ (fun r => r = Ok (fz (work_for T)))); [intros tr a E _ _; inversion E; reflexivity|]. intros ? ->.
    eapply hsound_bind; [apply hsound_namespace, complete_hsound, (num_alloc_complete w); reflexivity|]. intros bw [_ Ew].
    repeat (eapply hsound_bind; [apply hsound_any|]; intros ? _). intros ? ? E _ _. inversion E; subst. exact Ew.
  Qed.
  (** What the values of an honest prover show *)
  Theorem bitcoin_exact old new ob nb tr a : Forall2 (bit_has w) old ob -> Forall2 (bit_has w) new nb ->
    Exec (bitcoin_synthesize one old new) tr (Some (Ok a)) -> witnessed w tr -> constraints_hold w tr ->
    (928 <= length ob)%nat /\ (928 <= length nb)%nat /\ height_of nb = height_of ob + 1 /\
    bits_val (prev_hash_of (header_of nb)) mod p = bits_val (double_sha256 (header_of ob)) mod p /\
    negative_target (header_of nb) = false /\ 4 <= size_of (header_of nb) < 32 /\ mantissa_of (header_of nb) <> 0 /\
    mirrored (header_of nb) /\ chain_work_of nb mod p = (chain_work_of ob + work_of (header_of nb)) mod p.
  Proof.
    intros HO HN E W C.
    assert (bits : forall l bs, Forall2 (bit_has w) l bs -> Forall2 (bit_is w) l bs) by (induction 1 as [|l' b' bs bs' [X _]]; constructor; assumption).
    destruct (bitcoin_runs old new ob nb HO HN tr a E) as (LO & LN & HS & HM).
    destruct (bitcoin_sound FL one w w_one old new ob nb (bits _ _ HO) (bits _ _ HN) tr a E C) as (_ & _ & d & D).
    assert (H32 := cs_size _ _ _ _ D). assert (HS' : 4 <= size_of (header_of nb) < 32) by lia.
    split; [exact LO|]. split; [exact LN|]. split; [exact (cs_height _ _ _ _ D)|]. split; [exact (cs_hash _ _ _ _ D)|]. split; [exact (cs_sign _ _ _ _ D)|].
    split; [exact HS'|]. split; [exact HM|]. split.
    { assert (DM : mirrored (header_of nb) \/ ~ mirrored (header_of nb)).
      { unfold mirrored. destruct (list_eq_dec bool_dec (rev (field_of 576 8 (header_of nb))) (field_of 576 8 (header_of nb))), (list_eq_dec bool_dec (rev (field_of 584 8 (header_of nb))) (field_of 584 8 (header_of nb))),
          (list_eq_dec bool_dec (rev (field_of 592 8 (header_of nb))) (field_of 592 8 (header_of nb))); tauto. }
      destruct DM as [DM|DM]; [exact DM|]. destruct (bitcoin_unmirrored FL one w w_one old new ob nb HO HN DM tr a E W C). }
    clear D d. revert tr a E W C.
    enough (HH : hsound w (bitcoin_synthesize one old new) (fun _ => chain_work_of nb mod p = (chain_work_of ob + work_of (header_of nb)) mod p)) by (intros tr a E W C; exact (HH tr a E W C)).
    unfold bitcoin_synthesize.
    eapply hsound_bind; [apply sound_hsound, sound_namespace, (unpack_payload_sound FL one w w_one old ob (bits _ _ HO))|]. intros [[ph pc] phb] (_ & _ & Epc & _).
    eapply (hsound_bind w _ _ (fun '(h, c, hb) => num_val w c = fz (chain_work_of nb) /\ Forall2 (bool_has w) hb (header_of nb))).
    { intros tr a E W C. pose proof (sound_namespace _ _ _ _ (unpack_payload_sound FL one w w_one new nb (bits _ _ HN)) tr a E C) as X.
      pose proof (always_namespace _ _ _ (header_read new nb HN) tr a E) as Y. destruct a as [[h c] hb]. destruct X as (_ & _ & X & _). destruct Y as [_ Y]. split; assumption. }
    intros [[h c] hb] [Ec Fh].
    eapply hsound_bind; [apply hsound_any|]. intros _ _. set (hs := header_of nb) in *.
    assert (HL : length hs = 640%nat) by (apply header_length, LN).
    eapply hsound_bind; [apply sound_hsound, (from_header_hints w hb hs HL Fh)|]. intros cb (_ & _ & _ & _ & Es & Em).
    eapply hsound_bind; [apply sound_hsound, always_sound, always_namespace, (target_known cb _ _ Em Es)|]. intros [target tv] [_ Et]. cbn [snd] in Et. subst tv.
    assert (ET : u256_from_le (target_bytes [bits_val (field_of 576 8 hs); bits_val (field_of 584 8 hs); bits_val (field_of 592 7 hs)] (size_of hs)) = target_of hs).
    { rewrite u256_le, target_bytes_val by exact HS'. unfold target_of. rewrite (mantissa_bytes hs HL). reflexivity. }
    rewrite ET. destruct (target_bounds hs HL HS' HM) as [B1 B2].
    eapply hsound_bind; [apply (work_hinted target _ B1)|]. intros bw Ew. destruct (work_rest _ B1) as (_ & _ & _ & WE).
    apply sound_hsound. sstep. sstep.
    match goal with H : lc_val w _ = fzero |- _ => rewrite !(lc_val_sub_lc OL), !(num_lc_val FL), Ec, Epc, Ew, WE in H; fold (work_of hs) in H; rename H into HZ end.
    apply (fz_eq OL). rewrite (fz_add OL).
    assert (R : forall x y z : F, fsub (fsub x y) z = fzero -> x = fadd y z).
    { intros x y z H. assert (x = fadd (fsub (fsub x y) z) (fadd y z)) as -> by ring. rewrite H. ring. }
    exact (R _ _ _ HZ).
  Qed.
End Exact.
