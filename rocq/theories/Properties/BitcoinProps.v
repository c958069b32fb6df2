(** C65, C66: the header circuit of examples/bitcoin.rs: what it forces, and when an honest
    prover's values satisfy it.  Bitcoin's rules and the relation of the circuit are in
    Spec/BitcoinSpec.v. *)
From Coq Require Import String List Bool ZArith Znumtheory Zpow_facts Lia.
From Verif Require Import Model.FieldTrait Model.FieldInst Model.Circuits Model.Boolean Model.Bitcoin
  Spec.FieldLaws Spec.CircuitSpec Spec.BoolSpec Spec.Sha256Spec Spec.BitcoinSpec
  Proofs.HonestP Proofs.BoolP Proofs.UnpackP Proofs.WordP Proofs.FpFq Proofs.BitcoinP Proofs.BitcoinHonestP Properties.UIntProps.
Import ListNotations.
Open Scope Z_scope. Open Scope list_scope.
Local Notation length := List.length.

(** *** C65: if the wires of the two payloads are [ob] and [nb], then every assignment
    that satisfies the constraints - whatever the hints - shows a [circuit_step]. *)
Theorem C65_bitcoin_sound : forall (F : Field) p v, FieldLaws F p v ->
  forall (w : assignment F) (one : Var), w one = fone ->
  forall (old new : list AllocatedBit) (ob nb : list bool),
  Forall2 (bit_is w) old ob -> Forall2 (bit_is w) new nb ->
  sound w (bitcoin_synthesize one old new) (fun _ => (928 <= length ob)%nat /\ (928 <= length nb)%nat /\ exists d, circuit_step p ob nb d).
Proof. intros F p v FL w one w_one old new ob nb. exact (bitcoin_sound FL one w w_one old new ob nb). Qed.
Print Assumptions C65_bitcoin_sound.

(** A [circuit_step] is less than an extension of the chain.  What is missing, exactly:
    the start of the power of two must be one, the target and the sums must not wrap
    around the field's order, the rest of the division must be at most the target, the
    size must be at least 4 and hashes must be below the field's order. *)
Theorem C65_missing_checks : forall p ob nb d, prime p -> 2 < p -> circuit_step p ob nb d -> (928 <= length nb)%nat ->
  sd_start d = 1 -> sd_target d < p -> target_of (header_of nb) < p -> sd_rest d <= sd_target d ->
  4 <= size_of (header_of nb) -> bits_val (prev_hash_of (header_of nb)) < p -> bits_val (double_sha256 (header_of ob)) < p ->
  chain_work_of nb < p -> chain_work_of ob + sd_work d < p -> extends_chain ob nb.
Proof.
  intros p ob nb d Pp Hp [C1 C2 C3 C4 C5 [C6 C7] C8 [C9 C10] C11] HL Hs Ht Ht' Hr Hz Hh Hh' Hc Hc'.
  assert (L : length (header_of nb) = 640%nat) by (apply header_length, HL).
  assert (NP : forall bs, 0 <= bits_val bs) by (intro; apply bits_val_range).
  assert (Et : sd_target d = target_of (header_of nb)).
  { rewrite Hs, Z.pow_1_l, Z.mul_1_l in C7 by lia.
    assert (M0 : 0 <= target_of (header_of nb)) by (unfold target_of, mantissa_of; apply Z.mul_nonneg_nonneg; [apply NP|apply Z.pow_nonneg; lia]).
    assert (E : mantissa_of (header_of nb) * 256 ^ size_of (header_of nb) = target_of (header_of nb) * 256 ^ 3).
    { unfold target_of. rewrite <- Z.mul_assoc, <- Z.pow_add_r by lia. do 2 f_equal. lia. }
    rewrite E in C7. assert (D : (p | (sd_target d - target_of (header_of nb)) * 256 ^ 3)).
    { apply Z.mod_divide; [lia|]. rewrite Z.mul_sub_distr_r, Zminus_mod, C7, Z.sub_diag. apply Z.mod_0_l. lia. }
    rewrite Z.mul_comm in D. apply Gauss in D.
    - destruct D as [k D]. assert (k = 0) by nia. nia.
    - change (256 ^ 3) with (2 ^ 24). apply Zpow_facts.rel_prime_Zpower_r; [lia|].
      apply prime_rel_prime; [exact Pp|]. intros [k Hk]. assert (1 <= k) by nia. nia. }
  constructor; try assumption.
  - apply bits_val_inj.
    + unfold prev_hash_of. rewrite field_length by (rewrite L; lia). unfold double_sha256. rewrite (reverse_length _ 32) by apply SHA256_length. reflexivity.
    + rewrite !Z.mod_small in C2 by (split; [apply NP|assumption]). exact C2.
  - split; assumption.
  - assert (NC : 0 <= chain_work_of ob) by apply NP. assert (NC' : 0 <= chain_work_of nb) by apply NP.
    rewrite !Z.mod_small in C11 by lia. rewrite C11. f_equal. unfold work_of.
    destruct (Z.eq_dec (mantissa_of (header_of nb)) 0) as [Z0|Z0].
    + assert (T0 : target_of (header_of nb) = 0) by (unfold target_of; rewrite Z0; reflexivity). rewrite T0 in *. rewrite Et in C10, Hr.
      change (0 / 2) with 0 in C10. change (0 + 1) with 1. rewrite Z.div_1_r. lia.
    + destruct (target_bounds (header_of nb) L (conj Hz C4) Z0) as [B1 B2]. rewrite Et in C10, Hr.
      set (t := target_of (header_of nb)) in *. assert (Ev : 2 * (t / 2) = t) by (pose proof (Z.div_mod t 2); lia). rewrite Ev in C10.
      apply (Z.div_unique _ _ _ (sd_rest d)); [left; lia|]. lia.
Qed.
Print Assumptions C65_missing_checks.

(** *** C66: an honest prover's values ([witnessed]: every wire holds its hint) satisfy
    the circuit for an extension of the chain whose mantissa is not zero - if each byte
    of the mantissa reads the same in both directions, and only then. *)
Theorem C66_bitcoin_honest : forall (F : Field) p v, FieldLaws F p v ->
  forall (w : assignment F) (one : Var), w one = fone ->
  forall (old new : list AllocatedBit) (ob nb : list bool),
  Forall2 (bit_has w) old ob -> Forall2 (bit_has w) new nb ->
  ((928 <= length ob)%nat -> (928 <= length nb)%nat -> extends_chain ob nb -> mantissa_of (header_of nb) <> 0 ->
   mirrored (header_of nb) -> complete w (bitcoin_synthesize one old new) (fun _ => True)) /\
  (~ mirrored (header_of nb) -> forall tr a, Exec (bitcoin_synthesize one old new) tr (Some (Ok a)) ->
   witnessed w tr -> ~ constraints_hold w tr).
Proof.
  intros F p v FL w one w_one old new ob nb HO HN. split.
  - intros LO LN [E1 E2 E3 E4 E5] HM HR. apply (bitcoin_complete FL one w w_one old new ob nb); try assumption; congruence.
  - exact (bitcoin_unmirrored FL one w w_one old new ob nb HO HN).
Qed.
Print Assumptions C66_bitcoin_honest.

(** *** Block 1 extends the genesis block (the real headers, as in [main]). *)
Definition block0 : list bool := pack_payload_bits 0 GENESIS_CHAIN_WORK GENESIS_HEADER.
Definition block1 : list bool := pack_payload_bits 1 (nth 0 CHAIN_WORK []) (nth 0 HEADERS []).
(** The hash of the genesis block, 000000000019d668...0a8ce26f *)
Lemma genesis_hash : double_sha256 (header_of block0) = prev_hash_of (header_of block1).
Proof. vm_compute. reflexivity. Qed.
Example block1_extends : extends_chain block0 block1.
Proof.
  constructor; [vm_compute; reflexivity|symmetry; exact genesis_hash|vm_compute; reflexivity|vm_compute; split; congruence|vm_compute; reflexivity].
Qed.
Example block1_work : target_of (header_of block1) = 0xffff * 256 ^ 26 /\ work_of (header_of block1) = 0x100010001.
Proof. split; vm_compute; reflexivity. Qed.

Definition cells (n : nat) (bs : list bool) : list AllocatedBit :=
  map (fun i => mkBit (Some (nth i bs false)) (VA (n + i))) (seq 0 (length bs)).
Lemma cells_have n bs (w : assignment Fp) : extends (n + length bs) (wires_assignment n bs) w -> Forall2 (bit_has w) (cells n bs) bs.
Proof.
  intro H. apply wires_have in H. unfold wires_of in H. unfold cells. revert H. generalize (seq 0 (length bs)) as l. generalize bs at 2 4.
  intros l js. revert l. induction js as [|j js IH]; intros l H; inversion H; subst; constructor; [assumption|apply IH; assumption].
Qed.
Definition old_cells (ob nb : list bool) := firstn (length ob) (cells 2 (ob ++ nb)).
Definition new_cells (ob nb : list bool) := skipn (length ob) (cells 2 (ob ++ nb)).
Lemma cells_split ob nb (w : assignment Fp) : extends (2 + length (ob ++ nb)) (wires_assignment 2 (ob ++ nb)) w ->
  Forall2 (bit_has w) (old_cells ob nb) ob /\ Forall2 (bit_has w) (new_cells ob nb) nb.
Proof.
  intro H. apply cells_have in H. apply Forall2_app_inv_r in H. destruct H as (l1 & l2 & H1 & H2 & E). unfold old_cells, new_cells. rewrite E.
  assert (L : length l1 = length ob) by (clear - H1; induction H1; cbn; congruence). rewrite <- L, firstn_app, skipn_app, Nat.sub_diag, firstn_all, skipn_all, app_nil_r. cbn [firstn skipn app]. rewrite ?app_nil_r. split; assumption.
Qed.
(** The circuit runs on the two blocks, and its constraints are satisfied: the hypotheses
    of both theorems are met. *)
Example C65_nonvacuous : exists tr o (w : assignment Fp),
  w (VA 1) = fone /\ Forall2 (bit_has w) (old_cells block0 block1) block0 /\ Forall2 (bit_has w) (new_cells block0 block1) block1 /\
  Exec (bitcoin_synthesize (VA 1) (old_cells block0 block1) (new_cells block0 block1)) tr (Some (Ok o)) /\ constraints_hold w tr.
Proof.
  assert (B : (928 <= length block0)%nat /\ (928 <= length block1)%nat /\ mantissa_of (header_of block1) <> 0 /\ mirrored (header_of block1)).
  { split; [vm_compute; lia|]. split; [vm_compute; lia|]. split; [vm_compute; discriminate|]. vm_compute. repeat split. }
  pose proof block1_extends as X. revert B X. generalize block0 block1. intros ob nb (B1 & B2 & B3 & B4) X.
  destruct (complete_runs (bitcoin_synthesize (VA 1) (old_cells ob nb) (new_cells ob nb)) (2 + length (ob ++ nb)) (wires_assignment 2 (ob ++ nb))
    (fun _ _ => True)) as (tr & o & w & H1 & H2 & H3 & _).
  - intros w' Hw. destruct (cells_split ob nb w' Hw) as [G1 G2].
    apply (C66_bitcoin_honest Fp _ _ Fp_laws w' (VA 1) (wires_one 2 _ w' (le_n 2) Hw) _ _ ob nb G1 G2); assumption.
  - exists tr, o, w. destruct (cells_split ob nb w H3) as [G1 G2].
    split; [exact (wires_one 2 _ w (le_n 2) H3)|]. tauto.
Qed.

(** An extension of the chain that an honest prover cannot prove: the same block with the
    difficulty Bitcoin had from block 32256 on (nBits 1d00d86a), the first after 1d00ffff. *)
Definition hard_header : list Z :=
  firstn 72 (nth 0 HEADERS []) ++ [0x6a; 0xd8; 0x00; 0x1d] ++ skipn 76 (nth 0 HEADERS []).
Definition hard_work : list Z := rev (map (fun i => (0x100010001 + 2 ^ 256 / (0xd86a * 256 ^ 26 + 1)) / 256 ^ Z.of_nat i mod 256) (seq 0 32)).
Definition hard_block : list bool := pack_payload_bits 1 hard_work hard_header.
Example hard_block_extends : extends_chain block0 hard_block /\ mantissa_of (header_of hard_block) <> 0.
Proof.
  split; [|vm_compute; discriminate].
  constructor; [vm_compute; reflexivity| |vm_compute; reflexivity|vm_compute; split; congruence|vm_compute; reflexivity].
  rewrite genesis_hash. vm_compute. reflexivity.
Qed.
Theorem C66_every_extension_refuted : ~ (forall (w : assignment Fp) (one : Var) old new ob nb, w one = fone ->
  Forall2 (bit_has w) old ob -> Forall2 (bit_has w) new nb -> (928 <= length ob)%nat -> (928 <= length nb)%nat ->
  extends_chain ob nb -> mantissa_of (header_of nb) <> 0 -> complete w (bitcoin_synthesize one old new) (fun _ => True)).
Proof.
  intro H. destruct hard_block_extends as [X X'].
  assert (B : (928 <= length block0)%nat /\ (928 <= length hard_block)%nat /\ ~ mirrored (header_of hard_block)).
  { split; [vm_compute; lia|]. split; [vm_compute; lia|]. intros [N _]. vm_compute in N. discriminate N. }
  revert B X X'. generalize block0 hard_block. intros ob nb (B1 & B2 & B3) X X'.
  destruct (honest_execution (bitcoin_synthesize (VA 1) (old_cells ob nb) (new_cells ob nb)) (2 + length (ob ++ nb)) (wires_assignment 2 (ob ++ nb)))
    as (tr & r & w & H1 & H2 & H3).
  destruct (cells_split ob nb w H3) as [G1 G2]. pose proof (wires_one 2 _ w (le_n 2) H3) as W1.
  destruct (H w _ _ _ _ _ W1 G1 G2 B1 B2 X X' tr r H1 H2) as (a & -> & H4 & _).
  exact (proj2 (C66_bitcoin_honest Fp _ _ Fp_laws w (VA 1) W1 _ _ ob nb G1 G2) B3 tr a H1 H2 H4).
Qed.
Print Assumptions C66_every_extension_refuted.
