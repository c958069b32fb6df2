(** The native sponge refines the duplex sponge. *)
From Coq Require Import List Bool ZArith Lia Ring Field.
From Verif Require Import Model.FieldTrait Model.Circuits Model.Num Model.Rescue Spec.FieldLaws
  Spec.CircuitSpec Spec.NumSpec Spec.RescueSpec Proofs.FieldGen Proofs.ZtoF Proofs.NumP Proofs.RescueP.
Import ListNotations.
Open Scope nat_scope.

Section Sponge.
  Context {F : Field} {p v} (FL : FieldLaws F p v).
  Let OL := fl_ops _ _ _ FL.
  Add Field Ff : (ffield OL).
  Notation M := (@generate_mds_matrix F).
  Variable P : list F -> list F.
  Hypothesis HP : forall s, length s = 13 -> rescue_permutation s (P s).

  Lemma P_eq s : length s = 13 -> P s = staten s 20.
  Proof. intro Hs. apply (permutation_fun FL); [exact Hs|apply HP, Hs]. Qed.
  Lemma P_length s : length s = 13 -> length (P s) = 13.
  Proof. intro Hs. rewrite P_eq by exact Hs. apply (staten_length FL), Hs. Qed.
  Lemma mix_length s b : length (mix (F := F) s b) = 13.
  Proof. unfold mix. rewrite map_length. apply seq_length. Qed.

  Lemma add_into_nth : forall (s xs : list F), length xs <= length s ->
    add_into s xs = map (fun i => if i <? length xs then fadd (nth i s fzero) (nth i xs fzero) else nth i s fzero)
                        (seq 0 (length s)).
  Proof.
    induction s as [|a s IH]; intros [|x xs] H; cbn [add_into length] in *; try reflexivity; try lia.
    - change (a :: s = map (fun i => nth i (a :: s) fzero) (seq 0 (length (a :: s)))). apply map_nth_seq. reflexivity.
    - cbn [seq map]. f_equal. rewrite <- seq_shift, map_map. rewrite IH by lia. reflexivity.
  Qed.
  Definition block (buf : list F) : list (option F) := map Some buf ++ repeat None (12 - length buf).
  Lemma pad_block buf : pad (block buf) = buf ++ repeat fone (12 - length buf).
  Proof.
    unfold pad, block. rewrite map_app, map_map, map_id. f_equal. generalize (12 - length buf) as k. induction k as [|k IH]; [reflexivity|]. cbn [repeat map]. rewrite IH. reflexivity.
  Qed.
  Lemma add_into_mix s buf : length s = 13 -> length buf <= 12 -> add_into s (pad (block buf)) = mix s buf.
  Proof.
    intros Hs Hb. assert (length (pad (block buf)) = 12) as HL.
    { rewrite pad_block, app_length, repeat_length. lia. }
    rewrite add_into_nth, HL, Hs by lia. apply map_seq_ext. intros i Hi.
    destruct (i <? 12) eqn:E; [|reflexivity]. apply Nat.ltb_lt in E. f_equal.
    rewrite pad_block. destruct (Nat.lt_ge_cases i (length buf)) as [H|H].
    - rewrite app_nth1 by exact H. apply nth_indep, H.
    - rewrite app_nth2, (nth_overflow buf) by exact H. apply nth_repeat_lt. lia.
  Qed.
  Lemma duplex_eq s buf : length s = 13 -> length buf <= 12 ->
    rescue_duplex s (block buf) M (KS (F := F)) = (P (mix s buf), map Some (firstn 12 (P (mix s buf)))).
  Proof.
    intros Hs Hb. unfold rescue_duplex. rewrite add_into_mix, (rescue_f_eq FL), P_eq by (assumption || apply mix_length).
    reflexivity.
  Qed.

  Lemma fill_free (x : F) buf : length buf < 12 -> fill x (block buf) = Some (block (buf ++ [x])).
  Proof.
    intro H. unfold block. rewrite app_length, map_app, <- app_assoc. cbn [length map].
    replace (12 - length buf) with (S (12 - (length buf + 1))) by lia. generalize (12 - (length buf + 1)) as k. intro k.
    clear H. induction buf as [|b buf IH]; [reflexivity|]. cbn [map app fill]. rewrite IH. reflexivity.
  Qed.
  Lemma fill_full (x : F) buf : length buf = 12 -> fill x (block buf) = None.
  Proof.
    intro H. unfold block. rewrite H, Nat.sub_diag. cbn [repeat]. rewrite app_nil_r. clear H.
    induction buf as [|b buf IH]; [reflexivity|]. cbn [map fill]. rewrite IH. reflexivity.
  Qed.
  Definition outs (k : nat) (l : list F) : list (option F) := repeat None k ++ map Some (skipn k l).
  Lemma take_some (l : list F) k : k < length l -> take_first (outs k l) = Some (nth k l fzero, outs (S k) l).
  Proof.
    unfold outs. revert l. induction k as [|k IH]; intros [|e l] H; cbn [length] in H; try lia; [reflexivity|].
    cbn [repeat app take_first skipn nth]. rewrite IH by lia. reflexivity.
  Qed.
  Lemma take_none (l : list F) k : length l <= k -> take_first (outs k l) = None.
  Proof.
    intro H. unfold outs. rewrite skipn_all2 by exact H. rewrite app_nil_r.
    clear H. induction k as [|k IH]; [reflexivity|]. cbn [repeat take_first]. rewrite IH. reflexivity.
  Qed.

  (** the refinement relation *)
  Definition NR (r : Rescue F) (d : duplex F) : Prop :=
    r_state r = inner d /\ r_mds r = M /\ r_keys r = KS (F := F) /\ length (inner d) = 13 /\
    match phase d with
    | Taking buf => sponge r = Absorbing (block buf) /\ length buf <= 12
    | Giving k => sponge r = Squeezing (outs k (firstn 12 (inner d))) /\ k <= 12
    end.
  Lemma new_NR : NR rescue_new duplex_new.
  Proof.
    unfold NR, rescue_new, duplex_new. cbn [r_state r_mds r_keys sponge inner phase length].
    split; [reflexivity|]. split; [reflexivity|]. split; [reflexivity|]. split; [apply repeat_length|].
    split; [reflexivity|lia].
  Qed.
  Lemma absorb_NR r d x : NR r d -> NR (absorb r x) (duplex_absorb P d x).
  Proof.
    intros (Hs & Hm & Hk & HL & Hp). unfold absorb, duplex_absorb. destruct (phase d) as [buf|k].
    - destruct Hp as [-> Hb]. destruct (length buf <? 12) eqn:E.
      + apply Nat.ltb_lt in E. rewrite fill_free by exact E. unfold NR.
        cbn [r_state r_mds r_keys sponge inner phase]. rewrite app_length. cbn [length].
        split; [exact Hs|]. split; [exact Hm|]. split; [exact Hk|]. split; [exact HL|]. split; [reflexivity|lia].
      + apply Nat.ltb_ge in E. assert (length buf = 12) as E' by lia. rewrite fill_full by exact E'.
        rewrite Hs, Hm, Hk, duplex_eq by assumption. unfold NR. cbn [r_state r_mds r_keys sponge inner phase].
        split; [reflexivity|]. split; [reflexivity|]. split; [reflexivity|].
        split; [apply P_length, mix_length|]. split; [reflexivity|cbn [length]; lia].
    - destruct Hp as [-> Hb]. unfold NR. cbn [r_state r_mds r_keys sponge inner phase].
      split; [exact Hs|]. split; [exact Hm|]. split; [exact Hk|]. split; [exact HL|]. split; [reflexivity|cbn [length]; lia].
  Qed.
  Lemma first12 (s : list F) : length s = 13 -> length (firstn 12 s) = 12.
  Proof. intro H. rewrite firstn_length, H. reflexivity. Qed.
  Lemma nth_first12 (s : list F) i : i < 12 -> nth i (firstn 12 s) fzero = at_ s i.
  Proof.
    unfold at_. generalize 12 as n. intro n. revert s i. induction n as [|n IH]; intros [|a s] [|i] H; try lia; try reflexivity.
    cbn [firstn nth]. apply IH. lia.
  Qed.
  (** squeezing a freshly permuted state *)
  Lemma squeeze_fresh fuel r s : length s = 13 -> r_state r = s -> r_mds r = M -> r_keys r = KS (F := F) ->
    sponge r = Squeezing (map Some (firstn 12 s)) ->
    exists r', squeeze_loop (S fuel) r = Some (at_ s 0, r') /\ NR r' (mkDuplex s (Giving 1)).
  Proof.
    intros HL Hs Hm Hk Hp. cbn [squeeze_loop]. rewrite Hp.
    change (map Some (firstn 12 s)) with (outs 0 (firstn 12 s)).
    rewrite take_some by (rewrite first12 by exact HL; lia). rewrite nth_first12 by lia.
    eexists. split; [reflexivity|]. unfold NR. cbn [r_state r_mds r_keys sponge inner phase].
    split; [exact Hs|]. split; [exact Hm|]. split; [exact Hk|]. split; [exact HL|]. split; [reflexivity|lia].
  Qed.
  Lemma squeeze_taking fuel r d buf : NR r d -> phase d = Taking buf ->
    exists r', squeeze_loop (S (S fuel)) r = Some (fst (duplex_squeeze P d), r') /\ NR r' (snd (duplex_squeeze P d)).
  Proof.
    intros (Hs & Hm & Hk & HL & Hp) Eb. unfold duplex_squeeze. rewrite Eb in *. destruct Hp as [Hsp Hb].
    cbv zeta. cbn [fst snd]. remember (S fuel) as f. cbn [squeeze_loop]. rewrite Hsp, Hs, Hm, Hk, duplex_eq by assumption. subst f.
    apply squeeze_fresh; try reflexivity. apply P_length, mix_length.
  Qed.
  Lemma loop_empty fuel (r : Rescue F) o : sponge r = Squeezing o -> take_first o = None ->
    squeeze_loop (S fuel) r = squeeze_loop fuel (mkRescue (Absorbing empty_block) (r_state r) (r_mds r) (r_keys r)).
  Proof. intros H1 H2. cbn [squeeze_loop]. rewrite H1, H2. reflexivity. Qed.
  Lemma squeeze_NR r d : NR r d ->
    exists r', squeeze r = Some (fst (duplex_squeeze P d), r') /\ NR r' (snd (duplex_squeeze P d)).
  Proof.
    intros H. destruct (phase d) as [buf|k] eqn:Eb; [apply (squeeze_taking 1 _ _ _ H Eb)|].
    pose proof H as (Hs & Hm & Hk & HL & Hp). rewrite Eb in Hp. destruct Hp as [Hsp Hb].
    unfold squeeze, duplex_squeeze. rewrite Eb. destruct (k <? 12) eqn:E.
    - apply Nat.ltb_lt in E. cbn [squeeze_loop]. rewrite Hsp, take_some by (rewrite first12 by exact HL; exact E).
      rewrite nth_first12 by exact E.
      eexists. split; [reflexivity|]. unfold NR. cbn [fst snd r_state r_mds r_keys sponge inner phase].
      split; [exact Hs|]. split; [exact Hm|]. split; [exact Hk|]. split; [exact HL|]. split; [reflexivity|lia].
    - apply Nat.ltb_ge in E. rewrite (loop_empty 2 _ _ Hsp) by (apply take_none; rewrite first12 by exact HL; exact E).
      apply (squeeze_taking 0 _ (mkDuplex (inner d) (Taking [])) []); [|reflexivity].
      unfold NR. cbn [r_state r_mds r_keys sponge inner phase].
      split; [exact Hs|]. split; [exact Hm|]. split; [exact Hk|]. split; [exact HL|]. split; [reflexivity|cbn [length]; lia].
  Qed.
  Lemma run_NR h : forall r d, NR r d -> native_run r h = Some (duplex_run P d h).
  Proof.
    induction h as [|[x|] h IH]; intros r d H; cbn [native_run duplex_run]; [reflexivity| |].
    - apply IH, absorb_NR, H.
    - destruct (squeeze_NR _ _ H) as (r' & -> & H'). rewrite (IH _ _ H'). destruct (duplex_squeeze P d). reflexivity.
  Qed.
  Lemma native_refines h : native_run rescue_new h = Some (duplex_run P duplex_new h).
  Proof. apply run_NR, new_NR. Qed.
End Sponge.

(** Consequences for the duplex sponge, for any permutation of lists of length 13. *)
Section Duplex.
  Context {F : Field}.
  Variable P : list F -> list F.

  Lemma absorb_some xs : forall s buf t, length buf + length xs <= 12 ->
    duplex_run P (mkDuplex s (Taking buf)) (map Some xs ++ t) = duplex_run P (mkDuplex s (Taking (buf ++ xs))) t.
  Proof.
    induction xs as [|x xs IH]; intros s buf t H; cbn [map app length] in *; [rewrite app_nil_r; reflexivity|].
    cbn [duplex_run]. unfold duplex_absorb. cbn [phase inner].
    replace (length buf <? 12) with true by (symmetry; apply Nat.ltb_lt; lia).
    rewrite IH by (rewrite app_length; cbn [length]; lia). rewrite <- app_assoc. reflexivity.
  Qed.
  Lemma absorb_block b : forall s buf t, length buf = 12 -> b <> [] -> length b <= 12 ->
    duplex_run P (mkDuplex s (Taking buf)) (map Some b ++ t)
    = duplex_run P (mkDuplex (P (mix s buf)) (Taking b)) t.
  Proof.
    intros s buf t Hb Hn Hl. destruct b as [|x b]; [congruence|]. cbn [map app duplex_run length] in *.
    unfold duplex_absorb. cbn [phase inner].
    replace (length buf <? 12) with false by (symmetry; apply Nat.ltb_ge; lia).
    rewrite absorb_some by (cbn [length]; lia). reflexivity.
  Qed.
  Lemma giving m : forall s k, k + m <= 12 -> length s = 13 ->
    duplex_run P (mkDuplex s (Giving k)) (repeat None m) = firstn m (skipn k s).
  Proof.
    induction m as [|m IH]; intros s k H HL; [rewrite firstn_O; reflexivity|]. cbn [repeat duplex_run]. unfold duplex_squeeze.
    cbn [phase inner]. replace (k <? 12) with true by (symmetry; apply Nat.ltb_lt; lia).
    rewrite IH by (exact HL || lia).
    assert (skipn k s = at_ s k :: skipn (S k) s) as ->; [|reflexivity].
    assert (Hk : k < length s) by lia. clear - Hk.
    revert k Hk. induction s as [|a s IHs]; intros [|k] Hk; cbn [length] in Hk; try lia; [reflexivity|].
    cbn [skipn]. unfold at_ in *. cbn [nth]. apply IHs. lia.
  Qed.
  Hypothesis P_length : forall s, length s = 13 -> length (P s) = 13.
  Lemma squeeze_block s buf m : m <= 12 ->
    duplex_run P (mkDuplex s (Taking buf)) (repeat None m) = firstn m (P (mix s buf)).
  Proof.
    intro H. assert (length (P (mix s buf)) = 13) as HL.
    { apply P_length. unfold mix. rewrite map_length. apply seq_length. }
    destruct m as [|m]; [rewrite firstn_O; reflexivity|]. cbn [repeat duplex_run]. unfold duplex_squeeze. cbn [phase inner].
    rewrite giving by (exact HL || lia). destruct (P (mix s buf)); [discriminate HL|]. reflexivity.
  Qed.
  Lemma blocks_run full : forall s buf b m, length buf = 12 -> Forall (fun b => length b = 12) full ->
    b <> [] -> length b <= 12 -> m <= 12 ->
    duplex_run P (mkDuplex s (Taking buf)) (map Some (concat full ++ b) ++ repeat None m)
    = firstn m (absorb_blocks P s (buf :: full ++ [b])).
  Proof.
    induction full as [|f full IH]; intros s buf b m Hb HF Hn Hl Hm; cbn [concat app].
    - rewrite absorb_block by assumption. apply squeeze_block, Hm.
    - inversion HF as [|? ? H1 H2]; subst. rewrite <- app_assoc, map_app, <- app_assoc.
      rewrite absorb_block; [|exact Hb|intro E; rewrite E in H1; discriminate H1|lia].
      rewrite IH by assumption. reflexivity.
  Qed.
  Lemma transcript_run full b m : Forall (fun b => length b = 12) full -> length b <= 12 ->
    (full <> [] -> b <> []) -> m <= 12 ->
    duplex_run P duplex_new (map Some (concat full ++ b) ++ repeat None m)
    = firstn m (absorb_blocks P (repeat fzero 13) (full ++ [b])).
  Proof.
    intros HF Hl Hn Hm. unfold duplex_new. destruct full as [|f full]; cbn [concat app].
    - rewrite absorb_some by (cbn [length]; lia). apply squeeze_block, Hm.
    - inversion HF as [|? ? H1 H2]; subst. rewrite <- app_assoc, map_app, <- app_assoc.
      rewrite absorb_some by (cbn [length]; lia). apply blocks_run; try assumption. apply Hn. discriminate.
  Qed.
End Duplex.

(** What the linear layer loses. *)
Section Loss.
  Context {F : Field} {p v} (FL : FieldLaws F p v).
  Let OL := fl_ops _ _ _ FL.
  Add Field Ff2 : (ffield OL).

  Lemma output_ramp (s s' : list F) : length s = 13 -> rescue_permutation s s' ->
    forall i, i < 13 -> at_ s' i = fadd fone (times (i + 1) (fsub (at_ s' 0) fone)).
  Proof.
    intros Hs H i Hi. rewrite (permutation_fun FL _ _ Hs H).
    destruct (state_ramp FL s 19 Hs) as [c ->]. unfold at_, ramp.
    rewrite !nth_map_seq by lia. rewrite !(times_fz FL). change (fz (Z.of_nat (0 + 1))) with (@fone F). ring.
  Qed.
  Lemma lin_ext (s t : list F) : (forall j, 0 < j < 13 -> at_ s j = at_ t j) -> forall i, lin s i = lin t i.
  Proof.
    intros H i. unfold lin. f_equal. apply map_seq_ext. intros j Hj. rewrite !(times_fz FL).
    destruct j as [|j]; [rewrite Nat.mul_0_r; change (fz (Z.of_nat 0)) with (@fzero F); ring|].
    rewrite H by lia. reflexivity.
  Qed.
  Lemma staten_slot0 (s t : list F) : length s = 13 -> length t = 13 -> (forall j, 0 < j < 13 -> at_ s j = at_ t j) ->
    forall n, staten s (S n) = staten t (S n).
  Proof.
    intros Hs Ht H. induction n as [|n IH].
    - cbn [staten]. pose proof (keyn_length FL 0) as HK.
      assert (LS : forall u : list F, length u = 13 -> length (zip_with fadd u (keyn 0)) = 13).
      { intros u Hu. rewrite zip_with_length, Hu, HK. reflexivity. }
      rewrite !(round_eq FL) by (apply LS; assumption) || apply (keyn_length FL 1).
      apply map_seq_ext. intros i Hi. f_equal. apply lin_ext. intros j Hj.
      rewrite !at_map by (rewrite LS by assumption; lia).
      rewrite !zip_add by assumption. unfold at_. rewrite !nth_map_seq by lia.
      fold (at_ s j). fold (at_ t j). rewrite H by exact Hj. reflexivity.
    - change (round_ generate_mds_matrix (S n) (keyn (S (S n))) (staten s (S n))
              = round_ generate_mds_matrix (S n) (keyn (S (S n))) (staten t (S n))).
      rewrite IH. reflexivity.
  Qed.
  Lemma permutation_slot0 (s t s' : list F) : length s = 13 -> length t = 13 ->
    (forall j, 0 < j < 13 -> at_ s j = at_ t j) -> rescue_permutation s s' -> rescue_permutation t s'.
  Proof.
    intros Hs Ht H Hp. rewrite (permutation_fun FL _ _ Hs Hp), (staten_slot0 s t Hs Ht H).
    apply (permutation_staten FL), Ht.
  Qed.

  Variable P : list F -> list F.
  Hypothesis HP : forall s, length s = 13 -> rescue_permutation s (P s).
  Lemma P_slot0 (s t : list F) : length s = 13 -> length t = 13 -> (forall j, 0 < j < 13 -> at_ s j = at_ t j) -> P s = P t.
  Proof.
    intros Hs Ht H. rewrite (P_eq FL P HP s Hs), (P_eq FL P HP t Ht). apply staten_slot0; assumption.
  Qed.
  Lemma mix_slot0 (s : list F) x x' buf : P (mix s (x :: buf)) = P (mix s (x' :: buf)).
  Proof.
    apply P_slot0; try apply mix_length. intros j Hj. unfold at_, mix. rewrite !nth_map_seq by lia.
    destruct j as [|j]; [lia|]. reflexivity.
  Qed.
  Lemma ignored h : forall s x x' buf,
    duplex_run P (mkDuplex s (Taking (x :: buf))) h = duplex_run P (mkDuplex s (Taking (x' :: buf))) h.
  Proof.
    induction h as [|[y|] h IH]; intros s x x' buf; cbn [duplex_run]; [reflexivity| |].
    - unfold duplex_absorb. cbn [phase inner length]. destruct (S (length buf) <? 12).
      + apply (IH s x x' (buf ++ [y])).
      + rewrite (mix_slot0 s x x'). reflexivity.
    - unfold duplex_squeeze. cbn [phase inner]. rewrite (mix_slot0 s x x'). reflexivity.
  Qed.

  (** absorbed elements since the last squeeze, and the phase *)
  Definition phase_ok (m : mode F) (n : nat) : Prop :=
    match m with
    | Taking buf => length buf <= 12 /\ (exists q, n = 12 * q + length buf) /\ (0 < n -> 0 < length buf)
    | Giving _ => n = 0
    end.
  Lemma ignored_run h0 : forall d n x x' h, phase_ok (phase d) n -> since_squeeze n h0 mod 12 = 0 ->
    duplex_run P d (h0 ++ Some x :: h) = duplex_run P d (h0 ++ Some x' :: h).
  Proof.
    induction h0 as [|[y|] h0 IH]; intros d n x x' h Hd Hb; cbn [app duplex_run since_squeeze] in *.
    - unfold duplex_absorb. destruct (phase d) as [buf|k]; [|apply ignored].
      destruct Hd as (Hl & [q Hq] & Hp). destruct (length buf <? 12) eqn:E.
      + apply Nat.ltb_lt in E. rewrite Hq, Nat.add_comm, Nat.mul_comm, Nat.mod_add, Nat.mod_small in Hb by lia.
        destruct buf as [|a buf]; [|discriminate Hb]. apply ignored.
      + apply ignored.
    - apply (IH _ (S n)); [|exact Hb]. unfold duplex_absorb. destruct (phase d) as [buf|k]; cbn [phase].
      + destruct Hd as (Hl & [q Hq] & Hp). destruct (length buf <? 12) eqn:E; cbn [phase phase_ok].
        * apply Nat.ltb_lt in E. rewrite app_length. cbn [length]. split; [lia|]. split; [exists q; lia|lia].
        * apply Nat.ltb_ge in E. cbn [length]. split; [lia|]. split; [exists (S q); lia|lia].
      + cbn [phase_ok] in *. subst n. cbn [length]. split; [lia|]. split; [exists 0; lia|lia].
    - destruct (duplex_squeeze P d) as [e d'] eqn:E. f_equal. apply (IH d' 0); [|exact Hb].
      assert (exists k, phase d' = Giving k) as [k ->]; [|reflexivity].
      unfold duplex_squeeze in E. destruct (phase d) as [buf|k]; [|destruct (k <? 12)]; injection E as _ <-; eexists; reflexivity.
  Qed.
  Lemma native_ignores (h0 : list (option F)) x x' h : since_squeeze 0 h0 mod 12 = 0 ->
    native_run rescue_new (h0 ++ Some x :: h) = native_run rescue_new (h0 ++ Some x' :: h).
  Proof.
    intro H. rewrite !(native_refines FL P HP). f_equal. apply (ignored_run h0 _ 0); [|exact H].
    cbn. split; [lia|]. split; [exists 0; reflexivity|lia].
  Qed.
End Loss.
