(** C68: exactly which pairs of payloads the circuit of examples/bitcoin.rs accepts from a
    prover who chooses the witnesses: the chain work of the new payload is not restricted. *)
From Coq Require Import String List Bool ZArith Znumtheory Lia.
From Verif Require Import Model.FieldTrait Model.FieldInst Model.Circuits Model.Boolean Model.Bitcoin
  Spec.FieldLaws Spec.CircuitSpec Spec.BoolSpec Spec.Sha256Spec Spec.BitcoinSpec Spec.UniformSpec
  Proofs.FieldGen Proofs.ZtoF Proofs.HonestP Proofs.BoolP Proofs.UnpackP Proofs.WordP Proofs.FpFq Proofs.BitcoinP Proofs.BitcoinHonestP Proofs.BitcoinForgeP
  Properties.BitcoinProps.
From Verif Require Export Spec.BitcoinChainSpec.
Import ListNotations.
Open Scope Z_scope. Open Scope list_scope.
Local Notation length := List.length.

Definition start {F : Field} (bs : list bool) : assignment F :=
  fun x => match x with VA k => if (k <? 2)%nat then fone else of_bit (nth (k - 2) bs false) | _ => fone end.
Lemma start_wires {F : Field} (w : assignment F) bs : extends (2 + length bs) (start bs) w -> forall a l r, bs = a ++ l ++ r ->
  Forall2 (bit_has w) (known_wires (2 + length a) l) l.
Proof.
  intros H a l r E. unfold known_wires.
  assert (X : l = map (fun i => nth i l false) (seq 0 (length l))).
  { clear. induction l as [|x l IH]; [reflexivity|]. cbn [length seq map nth]. f_equal. rewrite <- seq_shift, map_map. exact IH. }
  assert (G : Forall (fun i => i < length l)%nat (seq 0 (length l))) by (apply Forall_forall; intros i Hi; apply in_seq in Hi; lia).
  enough (M : Forall2 (bit_has w) (map (fun i => mkBit (Some (nth i l false)) (VA (2 + length a + i))) (seq 0 (length l))) (map (fun i => nth i l false) (seq 0 (length l)))) by (rewrite <- X in M; exact M).
  clear X. induction G as [|i js Hi _ IH]; cbn [map]; [constructor|constructor; [|exact IH]]. split; [|reflexivity]. unfold bit_is. cbn [bit_var]. rewrite H.
  - unfold start. destruct (Nat.ltb_spec (2 + length a + i) 2); [lia|]. f_equal. subst bs. rewrite app_nth2 by lia. rewrite app_nth1 by lia. f_equal. lia.
  - intros k Ek. injection Ek as <-. subst bs. rewrite !app_length. lia.
Qed.
Lemma known_unknown n bs : Forall2 (same_bit (fun _ => True)) (known_wires n bs) (unknown_wires n bs).
Proof. unfold known_wires, unknown_wires. induction (seq 0 (length bs)); constructor; [split; reflexivity|assumption]. Qed.
Lemma known_known n bs : Forall2 (same_bit (fun _ => True)) (known_wires n bs) (known_wires n bs).
Proof. unfold known_wires. induction (seq 0 (length bs)); constructor; [split; reflexivity|assumption]. Qed.
Lemma known_values n bs : map bit_value (known_wires n bs) = map Some bs.
Proof.
  unfold known_wires. rewrite map_map. cbn [bit_value]. induction bs as [|x bs IH] in n |- *; [reflexivity|].
  cbn [length seq map nth]. f_equal. rewrite <- seq_shift, map_map. exact (IH n).
Qed.
Lemma unknown_is {F : Field} (w : assignment F) n bs ob : Forall2 (bit_has w) (known_wires n bs) ob -> Forall2 (bit_is w) (unknown_wires n bs) ob.
Proof.
  unfold known_wires, unknown_wires. generalize (seq 0 (length bs)). intros l. revert ob. induction l as [|i l IH]; intros ob H; inversion H; subst; constructor; [|apply IH; assumption].
  match goal with X : bit_has _ _ _ |- _ => exact (proj1 X) end.
Qed.

(** For a new payload with a target (else the verifier's run panics), the circuit checks
    the height, the previous block's hash modulo the field's order, and the sign bit of
    the target - and nothing else. *)
Theorem C68_accepted_exactly : forall (F : Field) p v, FieldLaws F p v -> forall ob nb, has_target nb ->
  (accepted F ob nb <->
   (928 <= length ob)%nat /\ (928 <= length nb)%nat /\ height_of nb = height_of ob + 1 /\
   bits_val (prev_hash_of (header_of nb)) mod p = bits_val (double_sha256 (header_of ob)) mod p /\
   negative_target (header_of nb) = false).
Proof.
  intros F p v FL ob nb HT. split.
  - intros (tr & o & w & W1 & HO & HN & HE & HC).
    destruct (C65_bitcoin_sound F p v FL w (VA 1) W1 _ _ ob nb HO HN tr o HE HC) as (LO & LN & d & [C1 C2 C3 _ _ _ _ _ _]). auto.
  - intros (LO & LN & Hh & Hq & Hg). destruct HT as [HS HM].
    destruct (fl_size _ _ _ FL) as [S1 S2].
    assert (Pp : 0 < p < 2 ^ 255) by (split; [eapply Z.lt_trans; [|exact S1]; reflexivity|exact S2]). clear S1 S2.
    (* any work modulo p *)
    set (W := (chain_work_of nb - chain_work_of ob - 1) mod p + 1).
    assert (RW : 0 < W < 2 ^ 256) by (unfold W; pose proof (Z.mod_pos_bound (chain_work_of nb - chain_work_of ob - 1) p ltac:(lia)); lia).
    assert (EW : chain_work_of nb mod p = (chain_work_of ob + W) mod p).
    { unfold W. replace (chain_work_of ob + ((chain_work_of nb - chain_work_of ob - 1) mod p + 1)) with (chain_work_of ob + 1 + (chain_work_of nb - chain_work_of ob - 1) mod p) by ring.
      rewrite Zplus_mod_idemp_r. f_equal. ring. }
    destruct (complete_runs (f_synthesize (VA 1) (fz (mantissa_of (header_of nb))) W (known_wires 2 ob) (known_wires (2 + length ob) nb))
      (2 + length (ob ++ nb)) (start (F := F) (ob ++ nb)) (fun _ _ => True)) as (tr & o & w & H1 & H2 & H3 & _).
    + intros w' Hw. apply (FC_bitcoin FL (VA 1) w') with (ob := ob) (nb := nb); try assumption.
      * rewrite Hw; [reflexivity|]. intros k E. injection E as <-. lia.
      * exact (start_wires w' _ Hw [] ob nb eq_refl).
      * apply (start_wires w' _ Hw ob nb []). rewrite app_nil_r. reflexivity.
    + destruct (alike_exec False (fun _ _ => True) _ _ (FA_bitcoin False (fun _ => True) (VA 1) I (fun x => proj1 (fe_bits_val FL x)) (fz (mantissa_of (header_of nb))) W _ _ _ _ nb
        (known_unknown 2 ob) (known_known (2 + length ob) nb) (known_values _ nb) (conj HS HM)) tr o H1) as (tr' & o' & H1' & _ & H2').
      exists tr', o', w. split; [rewrite H3; [reflexivity|]; intros k E; injection E as <-; lia|].
      split; [apply unknown_is; exact (start_wires w _ H3 [] ob nb eq_refl)|].
      split; [apply bits_has_is; apply (start_wires w _ H3 ob nb []); rewrite app_nil_r; reflexivity|].
      split; [exact H1'|]. apply H2', H2.
Qed.
Print Assumptions C68_accepted_exactly.

Lemma with_work_other work nb : length work = 256%nat -> (928 <= length nb)%nat ->
  length (with_work work nb) = length nb /\ height_of (with_work work nb) = height_of nb /\ header_of (with_work work nb) = header_of nb /\ chain_work_of (with_work work nb) = bits_val work.
Proof.
  intros HW HL. assert (L32 : length (firstn 32 nb) = 32%nat) by (rewrite firstn_length; lia).
  unfold with_work, height_of, header_of, chain_work_of, field_of. split; [rewrite !app_length, skipn_length, L32, HW; lia|]. split; [|split].
  - f_equal. change (skipn 0 nb) with nb. change (skipn 0 (firstn 32 nb ++ work ++ skipn 288 nb)) with (firstn 32 nb ++ work ++ skipn 288 nb).
    rewrite firstn_app, L32, firstn_firstn. cbn [Nat.sub]. rewrite firstn_O, app_nil_r. reflexivity.
  - f_equal. rewrite app_assoc, skipn_app, app_length, L32, HW. rewrite skipn_all2 by (rewrite app_length, L32, HW; lia). change (288 - (32 + 256))%nat with 0%nat. reflexivity.
  - f_equal. rewrite skipn_app, L32. rewrite (skipn_all2 (firstn 32 nb)) by lia. change (skipn (32 - 32) (work ++ skipn 288 nb)) with (work ++ skipn 288 nb). cbn [app]. rewrite firstn_app, HW, Nat.sub_diag, firstn_O, app_nil_r. rewrite firstn_all2 by lia. reflexivity.
Qed.
(** The chain work of an accepted payload can be replaced by anything. *)
Theorem C68_work_is_free : forall (F : Field) p v, FieldLaws F p v -> forall ob nb work, length work = 256%nat -> has_target nb ->
  accepted F ob nb -> accepted F ob (with_work work nb).
Proof.
  intros F p v FL ob nb work HW HT HA. apply (C68_accepted_exactly F p v FL ob nb HT) in HA. destruct HA as (LO & LN & H1 & H2 & H3).
  destruct (with_work_other work nb HW LN) as (E1 & E2 & E3 & _).
  assert (HT' : has_target (with_work work nb)) by (unfold has_target in *; rewrite E3; exact HT).
  apply (C68_accepted_exactly F p v FL ob _ HT'). rewrite E1, E2, E3. auto.
Qed.
Print Assumptions C68_work_is_free.

Lemma block1_accepted : accepted Fp block0 block1.
Proof.
  assert (HT : has_target block1) by (split; [vm_compute; split; congruence|vm_compute; discriminate]).
  apply (C68_accepted_exactly Fp _ _ Fp_laws block0 block1 HT). destruct block1_extends as [E1 E2 E3 _ _].
  split; [vm_compute; lia|]. split; [vm_compute; lia|]. split; [exact E1|]. split; [rewrite E2; reflexivity|exact E3].
Qed.
(** "An accepted payload extends the chain" is false: Bitcoin's block 1, with the largest
    chain work that can be written. *)
Definition heavy_block1 : list bool := with_work (repeat true 256) block1.
Theorem C68_accepted_extends_refuted : ~ (forall ob nb, has_target nb -> accepted Fp ob nb -> extends_chain ob nb).
Proof.
  intro H. assert (HT : has_target block1) by (split; [vm_compute; split; congruence|vm_compute; discriminate]).
  assert (HT' : has_target heavy_block1) by (split; [vm_compute; split; congruence|vm_compute; discriminate]).
  destruct (H block0 heavy_block1 HT' (C68_work_is_free Fp _ _ Fp_laws block0 block1 (repeat true 256) eq_refl HT block1_accepted)) as [_ _ _ _ E].
  vm_compute in E. discriminate E.
Qed.
Print Assumptions C68_accepted_extends_refuted.
