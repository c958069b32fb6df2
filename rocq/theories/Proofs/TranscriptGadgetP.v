(** The transcript of the recursive circuit: sponge operations and challenges,
    sound and complete (in the sense of Proofs/ModeP.v). *)
From Coq Require Import String List Bool Arith ZArith Lia Ring Field.
From Verif Require Import Model.FieldTrait Model.Circuits Model.Num Model.Boolean Model.Util Model.Rescue Model.RescueGadget Model.Opening Model.Recursion
  Spec.FieldLaws Spec.CircuitSpec Spec.NumSpec Spec.BoolSpec Spec.UtilSpec Spec.CurveSpec Spec.RescueSpec Spec.RecursionSpec
  Proofs.FieldGen Proofs.ZtoF Proofs.CircuitP Proofs.LcP Proofs.NumP Proofs.BoolP Proofs.UnpackP Proofs.ChallengeP
  Proofs.RescueP Proofs.SpongeP Proofs.RescueGadgetP Proofs.OpeningP Proofs.RecursionP Proofs.ModeP.
Import ListNotations.
Open Scope nat_scope.
Open Scope list_scope.

Section Transcript.
  Context {F : Field} {p : Z} {v : F -> Z} (FL : FieldLaws F p v) (one : Var).
  Let OL : OpsLaws F p v := fl_ops _ _ _ FL.
  Add Field Ft : (ffield OL).
  Variable w : assignment F.
  Hypothesis w_one : w one = fone.
  Variable m : bool.
  Notation JJ := (JJ w m).
  Notation need := (need m).
  Notation RA := (ModeP.RA w m).
  Notation RN := (ModeP.RN w m).
  Notation RB := (ModeP.RB w m).
  Definition RCw (c : Combination F) (x : F) : Prop := comb_wf c /\ ModeP.RC w m c x.

  Lemma m_alpha c x : RCw c x -> JJ (comb_rescue_alpha one c) (fun o => RN o (pow5 x)).
  Proof.
    intros [Hw [<- Hk]]. apply (J_two w m); [eapply comb_rescue_alpha_sound; eassumption|].
    intro E. specialize (Hk E). eapply comb_rescue_alpha_complete; eassumption.
  Qed.
  Lemma m_invalpha c x : RCw c x -> JJ (comb_rescue_invalpha one c) (fun o => RN o (pow F x (f_RESCUE_INVALPHA F))).
  Proof.
    intros [Hw [<- Hk]]. apply (J_two w m); [eapply comb_rescue_invalpha_sound; eassumption|].
    intro E. specialize (Hk E). eapply comb_rescue_invalpha_complete; eassumption.
  Qed.
  Lemma m_evaluate c x : RCw c x -> JJ (comb_evaluate one c) (fun o => RN o x).
  Proof.
    intros [Hw [<- Hk]]. apply (J_two w m); [eapply comb_evaluate_sound; eassumption|].
    intro E. specialize (Hk E). eapply comb_evaluate_complete; eassumption.
  Qed.
  Lemma m_const x : RN (n_constant x) x.
  Proof. split; [reflexivity|]. intros _. apply n_constant_ok. Qed.
  Lemma m_from n x : RN n x -> RCw (comb_from n) x.
  Proof.
    intros [<- H]. split; [apply (comb_from_wf FL)|]. split; [apply (comb_from_val FL)|]. intro E. apply (comb_from_ok FL), H, E.
  Qed.
  Lemma m_add c x n y : RCw c x -> RN n y -> RCw (comb_add_n c n) (fadd x y).
  Proof.
    intros [Hw [<- H1]] [<- H2]. split; [apply (comb_add_n_wf FL), Hw|]. split; [apply (comb_add_n_val FL)|].
    intro E. apply (comb_add_n_ok FL); auto.
  Qed.
  Lemma m_addc c x k n y : RCw c x -> RN n y -> RCw (comb_add_cn c (CFull k) n) (fadd x (fmul k y)).
  Proof.
    intros [Hw [<- H1]] [<- H2]. split; [apply (comb_add_cn_wf FL), Hw|]. split; [apply (comb_add_cn_val FL)|].
    intro E. apply (comb_add_cn_ok FL); auto.
  Qed.
  Lemma m_alloc val x : need (val = Ok x) -> JJ (num_alloc val) (fun o => need (RA o x)).
  Proof.
    intro H. eapply (J_weaken w m); [apply (J_two w m _ _ (fun o => num_ok w o /\ num_val w o = x) (num_alloc_sound w val))|].
    - intro E. apply (num_alloc_complete w _ x), H, E.
    - cbv beta. intros o [_ H2] E. destruct (H2 E). split; [assumption|]. intros _. assumption.
  Qed.
  Lemma m_one B (f : AllocatedNum F -> CS F B) (Q : B -> Prop) :
    (forall o, RN (n_from o) fone -> JJ (f o) Q) ->
    JJ (bind (namespace "TODO remove this" (num_alloc (Ok fone))) (fun o =>
       bind (enforce_zero (lc_sub_v (num_lc o) one)) (fun _ => f o))) Q.
  Proof.
    intro H. eapply (J_nsb w m); [apply (m_alloc _ fone); intros _; reflexivity|]. intros o Ho. cbv beta in Ho.
    apply (J_enforce w m _ (fsub (num_val w o) fone)).
    - unfold num_lc. rewrite (lc_val_sub_v OL), (lc_val_from OL), w_one. reflexivity.
    - intro E. destruct (Ho E) as [-> _]. ring.
    - intro E. apply (proj1 (fsub_zero OL _ _)) in E. apply H, (RN_from FL). split; [exact E|]. intro Em. apply (Ho Em), Em.
  Qed.
  Lemma m_out B (f : AllocatedNum F -> CS F B) (Q : B -> Prop) c x : RCw c x ->
    (forall o, RA o x -> RCw (comb_from_num o) x -> JJ (f o) Q) ->
    JJ (bind (namespace "squeezed element" (num_alloc (ok_or_missing (comb_value c)))) (fun out =>
       bind (enforce_zero (lc_sub_lc (num_lc out) (comb_lc one c))) (fun _ => f out))) Q.
  Proof.
    intros [Hw [Hc Hk]] H. eapply (J_nsb w m); [apply (m_alloc _ x); intro E; rewrite (Hk E), Hc; reflexivity|].
    intros o Ho. cbv beta in Ho.
    apply (J_enforce w m _ (fsub (num_val w o) x)).
    - unfold num_lc. rewrite (lc_val_sub_lc OL), (lc_val_from OL), (comb_lc_val FL one w w_one), Hc. reflexivity.
    - intro E. destruct (Ho E) as [-> _]. ring.
    - intro E. apply (proj1 (fsub_zero OL _ _)) in E.
      assert (R : RA o x) by (split; [exact E|intro Em; apply (Ho Em), Em]).
      apply H; [exact R|]. destruct R as [R1 R2]. split; [apply comb_from_num_wf|].
      split; [rewrite (comb_from_num_val FL); exact R1|]. intro Em. apply (comb_from_num_ok FL), R2, Em.
  Qed.

  (** A transcript in the circuit and the native one *)
  Definition TR (g : RescueGadget F) (r : Rescue F) : Prop := GR RCw RN g r /\ live r.
  Lemma J_t_new : JJ (gadget_new one) (fun g => TR g rescue_new).
  Proof.
    eapply (J_weaken w m).
    - apply (J_new FL one (fun A => @ModeP.JJ F w m A) RCw RN); try (intros; eapply J_ret; eassumption).
      + intros A B c f Q1 Q. apply (J_bind w m).
      + intros A s c Q. apply (J_ns w m).
      + apply m_alpha.
      + apply m_invalpha.
      + apply m_evaluate.
      + apply m_const.
      + apply m_from.
      + apply m_add.
      + apply m_addc.
    - cbv beta. intros g H. split; [exact H|apply live_new].
  Qed.
  Lemma J_t_absorb g r n x : TR g r -> RN n x -> JJ (gadget_absorb one g n) (fun g' => TR g' (absorb r x)).
  Proof.
    intros [H HL] Hn. eapply (J_weaken w m).
    - apply (J_absorb FL one (fun A => @ModeP.JJ F w m A) RCw RN) with (1 := fun A => @J_ret F w m A); try eassumption.
      + intros A B c f Q1 Q. apply (J_bind w m).
      + intros A s c Q. apply (J_ns w m).
      + apply m_alpha.
      + apply m_invalpha.
      + apply m_const.
      + apply m_from.
      + apply m_add.
      + apply m_addc.
      + apply m_one.
    - cbv beta. intros g' Hg. split; [exact Hg|apply (live_absorb FL), HL].
  Qed.
  Lemma J_t_squeeze g r : TR g r -> JJ (gadget_squeeze one g) (fun '(n, g') => exists e r',
    squeeze r = Some (e, r') /\ RA n e /\ TR g' r').
  Proof.
    intros [H HL]. destruct (live_squeeze FL r HL) as (e & r' & E & HL'). destruct HL as [(d & Hn) _].
    assert (HS : length (r_state r) = 13 /\ r_mds r = generate_mds_matrix /\ r_keys r = KS (F := F)).
    { destruct Hn as (E1 & E2 & E3 & E4 & _). rewrite E1. auto. }
    destruct HS as (L1 & L2 & L3).
    eapply (J_weaken w m).
    - unfold gadget_squeeze. eapply (J_squeeze FL one (fun A => @ModeP.JJ F w m A) RCw RN RA) with (1 := fun A => @J_ret F w m A) (r := r); try eassumption.
      + intros A B c f Q1 Q. apply (J_bind w m).
      + intros A s c Q. apply (J_ns w m).
      + apply m_alpha.
      + apply m_invalpha.
      + apply m_const.
      + apply m_from.
      + apply m_add.
      + apply m_addc.
      + apply m_one.
      + apply m_out.
      + rewrite L2, L3; intros; apply (duplex_length FL); assumption.
      + rewrite L2, L3; intros; apply (duplex_length FL); assumption.
    - cbv beta. intros [n g'] [H1 H2]. exists e, r'. split; [exact E|]. split; [exact H1|]. split; assumption.
  Qed.

  Lemma J_unpack_fe n x : RN n x -> JJ (unpack_fe one n) (fun bits => exists bs,
    length bits = 256 /\ Forall2 RB bits bs /\ (bits_val bs mod p)%Z = v x /\ need (bits_val bs = v x)).
  Proof.
    intros [<- Hn]. unfold ModeP.JJ, ModeP.RB. destruct m.
    - eapply complete_weaken; [apply (unpack_fe_complete FL one w w_one), Hn, eq_refl|].
      cbv beta. intros bits (bs & HL & HB & HV). exists bs. split; [exact HL|]. split; [|split].
      + clear - HB. induction HB as [|? ? ? ? Hb]; constructor; [|assumption]. split; [apply Hb|intros _; exact Hb].
      + rewrite HV. apply Z.mod_small, (ol_range _ _ _ OL).
      + intros _. exact HV.
    - eapply sound_weaken; [apply (unpack_fe_sound FL one w w_one)|].
      cbv beta. intros bits (bs & HL & HB & HV). exists bs. split; [exact HL|]. split; [|split].
      + clear - HB. induction HB as [|? ? ? ? Hb]; constructor; [|assumption]. split; [exact Hb|discriminate].
      + exact HV.
      + discriminate.
  Qed.
  Lemma F2_firstn {A B} (R : A -> B -> Prop) k l l' : Forall2 R l l' -> Forall2 R (firstn k l) (firstn k l').
  Proof. intro H. revert k. induction H; intros [|k]; cbn [firstn]; constructor; auto. Qed.
  Lemma bits_val_firstn k bs : k <= length bs -> bits_val (firstn k bs) = (bits_val bs mod 2 ^ Z.of_nat k)%Z.
  Proof.
    intro H. pose proof (firstn_length_le bs H) as E. pose proof (bits_val_range (firstn k bs)) as R. rewrite E in R.
    rewrite <- (firstn_skipn k bs) at 2. rewrite bits_val_app, E.
    rewrite (Z.mul_comm (2 ^ Z.of_nat k)), Z_mod_plus_full.
    symmetry. apply Z.mod_small. exact R.
  Qed.
  Lemma J_get_challenge g r : TR g r -> JJ (g_get_challenge one g) (fun '(bits, g') => exists e r' z bs,
    squeeze r = Some (e, r') /\ TR g' r' /\ Forall2 RB bits bs /\ challenge_bits z bs /\
    (0 <= z < 2 ^ 256)%Z /\ (z mod p)%Z = v e /\ need (z = v e)).
  Proof.
    intro H. unfold g_get_challenge.
    eapply (J_nsb w m); [apply (J_t_squeeze g r H)|]. intros [n g'] (e & r' & E & Hn & Hg').
    eapply (J_nsb w m); [apply (J_unpack_fe (n_from n) e), (RN_from FL), Hn|].
    cbv beta. intros bits (bs & HL & HB & HV & HN). apply (J_ret w m).
    pose proof (Forall2_length _ _ _ HB) as HL2. rewrite HL in HL2. symmetry in HL2.
    exists e, r', (bits_val bs), (firstn 127 bs ++ [true]).
    split; [exact E|]. split; [exact Hg'|]. split; [|split; [|split; [|split; [exact HV|exact HN]]]].
    - apply Forall2_app; [apply F2_firstn, HB|]. constructor; [|constructor].
      split; [apply (bit_one_is one w w_one)|intros _; apply (bit_one_has one w w_one)].
    - split; [rewrite app_length, firstn_length, HL2; reflexivity|].
      rewrite bits_val_app, bits_val_firstn, firstn_length, HL2 by (rewrite HL2; apply Nat.leb_le; reflexivity).
      change (Nat.min 127 256) with 127. change (bits_val [true]) with 1%Z. change (Z.of_nat 127) with 127%Z. ring.
    - pose proof (bits_val_range bs) as R. rewrite HL2 in R. exact R.
  Qed.
End Transcript.
