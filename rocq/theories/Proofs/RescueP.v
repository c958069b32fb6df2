(** The native Rescue permutation and sponge. *)
From Coq Require Import List Bool ZArith Lia Ring Field.
From Verif Require Import Model.FieldTrait Model.Circuits Model.Num Model.Rescue Spec.FieldLaws
  Spec.CircuitSpec Spec.NumSpec Spec.RescueSpec Proofs.FieldGen Proofs.ZtoF Proofs.NumP.
Import ListNotations.
Open Scope nat_scope.

(** lists *)
Lemma zip_with_map {A B C D} (f : B -> C -> D) (a : A -> B) (b : A -> C) l :
  zip_with f (map a l) (map b l) = map (fun x => f (a x) (b x)) l.
Proof. induction l as [|x l IH]; cbn [map zip_with]; [reflexivity|]. rewrite IH. reflexivity. Qed.
Lemma zip_with_length {A B C} (f : A -> B -> C) xs : forall ys,
  length (zip_with f xs ys) = Nat.min (length xs) (length ys).
Proof. induction xs as [|x xs IH]; intros [|y ys]; cbn [zip_with length]; try reflexivity. rewrite IH. reflexivity. Qed.
Lemma map_nth_seq {A} (d : A) s : forall n, length s = n -> s = map (fun i => nth i s d) (seq 0 n).
Proof.
  induction s as [|x s IH]; intros n <-; [reflexivity|]. cbn [length seq map]. f_equal.
  rewrite <- seq_shift, map_map. apply (IH _ eq_refl).
Qed.
Lemma nth_map_seq {A} (f : nat -> A) n i d : i < n -> nth i (map f (seq 0 n)) d = f i.
Proof.
  intro H. rewrite (nth_indep _ d (f 0)) by (rewrite map_length, seq_length; exact H).
  rewrite map_nth, seq_nth by exact H. reflexivity.
Qed.
Lemma map_seq_ext {A} (f g : nat -> A) n : (forall i, i < n -> f i = g i) -> map f (seq 0 n) = map g (seq 0 n).
Proof. intro H. apply map_ext_in. intros i Hi. apply in_seq in Hi. apply H. lia. Qed.

Lemma nth_repeat_lt {A} (a d : A) m i : i < m -> nth i (repeat a m) d = a.
Proof. revert i. induction m as [|m IH]; intros [|i] H; cbn [repeat nth]; try lia; auto. apply IH. lia. Qed.

Section Native.
  Context {F : Field} {p v} (FL : FieldLaws F p v).
  Let OL := fl_ops _ _ _ FL.
  Add Field Ff : (ffield OL).
  Local Notation fz := (@ZtoF.fz F).

  Lemma times_fz n (x : F) : times n x = fmul (fz (Z.of_nat n)) x.
  Proof.
    induction n as [|n IH]; cbn [times]; [rewrite (fz_0); ring|].
    rewrite IH, Nat2Z.inj_succ. unfold Z.succ. rewrite (fz_add OL), fz_1. ring.
  Qed.
  Lemma from_u64_fz z : (0 <= z < 2 ^ 64)%Z -> f_from_u64 z = fz z.
  Proof.
    intro H. apply (ol_inj _ _ _ OL). rewrite (fl_from_u64 _ _ _ FL) by exact H. rewrite (v_fz OL).
    symmetry. apply Z.mod_small. pose proof (fl_size _ _ _ FL). lia.
  Qed.
  Lemma sum_fold xs : forall acc : F, fold_left (fun acc t => fadd acc t) xs acc = fadd acc (sum xs).
  Proof. induction xs as [|x xs IH]; intro acc; cbn [fold_left sum]; [ring|]. rewrite IH. ring. Qed.

  Lemma f0l (x : F) : fadd fzero x = x. Proof. ring. Qed.

  (** the linear layer *)
  Definition lin (s : list F) (i : nat) : F :=
    sum (map (fun j => times ((i + 1) * j) (at_ s j)) (seq 0 13)).
  Lemma mds_lin s : length s = 13 -> mds s generate_mds_matrix = map (lin s) (seq 0 13).
  Proof.
    intro Hs. unfold mds, generate_mds_matrix. rewrite map_map. apply map_seq_ext. intros i Hi.
    rewrite sum_fold. unfold lin. rewrite (map_nth_seq fzero s 13 Hs) at 1. fold (at_ s).
    unfold RESCUE_M. rewrite zip_with_map, f0l.
    f_equal. apply map_seq_ext. intros j Hj. rewrite times_fz, from_u64_fz; [reflexivity|]. nia.
  Qed.
  Lemma lin_rank s i : lin s i = times (i + 1) (lin s 0).
  Proof.
    unfold lin. rewrite times_fz. induction (seq 0 13) as [|j l IH]; cbn [map sum]; [ring|].
    rewrite IH, !times_fz. replace ((i + 1) * j) with ((i + 1) * ((0 + 1) * j)) by lia.
    rewrite Nat2Z.inj_mul, (fz_mul OL). ring.
  Qed.

  Lemma exp_wf r : limbs_wf (@round_exp F r).
  Proof. unfold round_exp. destruct (r mod 2 =? 0); [apply (fl_invalpha_wf _ _ _ FL)|exact (alpha_wf FL)]. Qed.
  Lemma round_pow r (x : F) : pow_vartime F x (@round_exp F r) = pow F x (@round_exp F r).
  Proof. rewrite (pow_vartime_zpow OL), (pow_zpow OL) by apply exp_wf. reflexivity. Qed.
  Lemma even_mod r : (r mod 2 =? 0) = Nat.even r.
  Proof.
    destruct (Nat.even r) eqn:E.
    - apply Nat.even_spec in E. destruct E as [k ->]. rewrite Nat.mul_comm, Nat.mod_mul by lia. reflexivity.
    - assert (Nat.odd r = true) as O by (unfold Nat.odd; rewrite E; reflexivity).
      apply Nat.odd_spec in O. destruct O as [k ->].
      rewrite Nat.add_comm, Nat.mul_comm, Nat.mod_add by lia. reflexivity.
  Qed.
  Lemma sbox_pow r (x : F) : sbox r x (pow F x (@round_exp F r)).
  Proof.
    unfold sbox, round_exp. rewrite even_mod. destruct (Nat.even r).
    - apply (pow5_invalpha FL). - apply (pow_alpha FL).
  Qed.
  Lemma sbox_fun r (x y : F) : sbox r x y -> y = pow F x (@round_exp F r).
  Proof.
    unfold sbox, round_exp. rewrite even_mod. destruct (Nat.even r); intros H; subst.
    - symmetry. apply (invalpha_pow5 FL). - symmetry. apply (pow_alpha FL).
  Qed.

  Lemma at_map (f : F -> F) s i : i < length s -> at_ (map f s) i = f (at_ s i).
  Proof.
    intro Hi. unfold at_. rewrite (nth_indep (map f s) fzero (f fzero)) by (rewrite map_length; exact Hi). apply map_nth.
  Qed.

  Lemma zip_add (s k : list F) : length s = 13 -> length k = 13 ->
    zip_with fadd s k = map (fun i => fadd (at_ s i) (at_ k i)) (seq 0 13).
  Proof.
    intros Hs Hk. transitivity (zip_with fadd (map (at_ s) (seq 0 13)) (map (at_ k) (seq 0 13))); [|apply zip_with_map].
    f_equal; apply map_nth_seq; assumption.
  Qed.

  (** rounds *)
  Notation M := (@generate_mds_matrix F).
  Lemma round_eq r k s : length s = 13 -> length k = 13 ->
    round_ M r k s = map (fun i => fadd (lin (map (fun x => pow F x (@round_exp F r)) s) i) (at_ k i)) (seq 0 13).
  Proof.
    intros Hs Hk. unfold round_. rewrite (map_ext _ _ (round_pow r)), mds_lin by (rewrite map_length; exact Hs).
    rewrite zip_add; [|rewrite map_length; apply seq_length|exact Hk].
    apply map_seq_ext. intros i Hi. unfold at_ at 1. rewrite nth_map_seq by exact Hi. reflexivity.
  Qed.
  Lemma round_length r k s : length s = 13 -> length k = 13 -> length (round_ M r k s) = 13.
  Proof. intros. rewrite round_eq, map_length, seq_length by assumption. reflexivity. Qed.
  Lemma round_spec_round r k s : length s = 13 -> length k = 13 -> round_spec r k s (round_ M r k s).
  Proof.
    intros Hs Hk. exists (map (fun x => pow F x (@round_exp F r)) s). split; [rewrite map_length; exact Hs|]. split.
    - intros i Hi. rewrite at_map by (rewrite Hs; exact Hi). apply sbox_pow.
    - apply round_eq; assumption.
  Qed.
  Lemma round_spec_fun r k s s' : length s = 13 -> length k = 13 -> round_spec r k s s' -> s' = round_ M r k s.
  Proof.
    intros Hs Hk (mid & Hm & Hb & ->). rewrite round_eq by assumption.
    assert (mid = map (fun x => pow F x (@round_exp F r)) s) as ->; [|reflexivity].
    rewrite (map_nth_seq fzero mid 13 Hm), (map_nth_seq fzero s 13 Hs), map_map.
    apply map_seq_ext. intros i Hi. apply sbox_fun, Hb, Hi.
  Qed.

  (** the states and keys as iterations *)
  Fixpoint keyn (n : nat) : list F :=
    match n with O => ones | S n => round_ M n ones (keyn n) end.
  Fixpoint staten (s : list F) (n : nat) : list F :=
    match n with O => zip_with fadd s (keyn 0) | S n => round_ M n (keyn (S n)) (staten s n) end.
  Lemma ones_length : length (@ones F) = 13. Proof. apply repeat_length. Qed.
  Lemma keyn_length n : length (keyn n) = 13.
  Proof. induction n; [apply ones_length|]. cbn [keyn]. apply round_length; [assumption|apply ones_length]. Qed.
  Lemma staten_length s n : length s = 13 -> length (staten s n) = 13.
  Proof.
    intro Hs. induction n; [cbn [staten]; rewrite zip_with_length, Hs, keyn_length; reflexivity|].
    cbn [staten]. apply round_length; [assumption|apply keyn_length].
  Qed.
  Lemma keyn_spec : key_schedule_spec keyn.
  Proof. split; [reflexivity|]. intros r _. apply round_spec_round; [apply keyn_length|apply ones_length]. Qed.
  Lemma key_spec_fun keys : key_schedule_spec keys -> forall r, r <= 20 -> keys r = keyn r.
  Proof.
    intros [H0 HS] r. induction r as [|r IH]; intro Hr; [exact H0|].
    cbn [keyn]. apply round_spec_fun; [apply keyn_length|apply ones_length|]. rewrite <- IH by lia. apply HS. lia.
  Qed.
  Lemma permutation_staten s : length s = 13 -> rescue_permutation s (staten s 20).
  Proof.
    intro Hs. exists keyn, (staten s). split; [apply keyn_spec|]. split; [|split; [|reflexivity]].
    - cbn [staten]. apply zip_add; [exact Hs|apply (keyn_length 0)].
    - intros r _. apply round_spec_round; [apply staten_length, Hs|apply keyn_length].
  Qed.
  Lemma permutation_fun s s' : length s = 13 -> rescue_permutation s s' -> s' = staten s 20.
  Proof.
    intros Hs (keys & states & HK & H0 & HS & ->).
    enough (forall r, r <= 20 -> states r = staten s r) by auto.
    induction r as [|r IH]; intro Hr.
    - rewrite H0. cbn [staten]. rewrite zip_add; [|exact Hs|apply (keyn_length 0)].
      apply map_seq_ext. intros i Hi. rewrite (key_spec_fun _ HK) by lia. reflexivity.
    - cbn [staten]. apply round_spec_fun; [apply staten_length, Hs|apply keyn_length|].
      rewrite <- IH by lia. rewrite <- (key_spec_fun _ HK) by exact Hr. apply HS. lia.
  Qed.

  (** the code's schedule and permutation *)
  Lemma zip_zero_ones : zip_with fadd (repeat (@fzero F) RESCUE_M) (repeat fone RESCUE_M) = ones.
  Proof.
    unfold ones, RESCUE_M. generalize 13 as m. induction m as [|n IH]; cbn [repeat zip_with]; [reflexivity|]. rewrite IH. f_equal. ring.
  Qed.
  Lemma key_rounds_eq m : forall r, key_rounds M r (repeat ones m) (keyn r) = map keyn (seq (S r) m).
  Proof.
    induction m as [|m IH]; intro r; cbn [repeat key_rounds seq map]; [reflexivity|]. f_equal. exact (IH (S r)).
  Qed.
  Definition KS : list (list F) := generate_key_schedule (repeat fzero RESCUE_M) M.
  Lemma KS_eq : KS = map keyn (seq 0 21).
  Proof.
    unfold KS, generate_key_schedule. rewrite zip_zero_ones.
    change (seq 0 21) with (0 :: seq 1 20). cbn [map]. exact (f_equal (cons ones) (key_rounds_eq 20 0)).
  Qed.
  Lemma rounds_eq s m : forall r, rounds M r (map keyn (seq (S r) m)) (staten s r) = staten s (r + m).
  Proof.
    induction m as [|m IH]; intro r; cbn [seq map rounds]; [f_equal; lia|].
    transitivity (staten s (S r + m)); [exact (IH (S r))|]. f_equal. lia.
  Qed.
  Lemma rescue_f_eq s : rescue_f s M KS = staten s 20.
  Proof.
    rewrite KS_eq. change (seq 0 21) with (0 :: seq 1 20). cbn [map rescue_f].
    replace (zip_with fadd s (keyn 0)) with (staten s 0) by reflexivity. exact (rounds_eq s 20 0).
  Qed.

  (** rank one *)
  Definition ramp (c : F) : list F := map (fun i => fadd fone (times (i + 1) c)) (seq 0 13).
  Lemma key_ramp r : exists c, keyn (S r) = ramp c.
  Proof.
    cbn [keyn]. rewrite round_eq by (apply keyn_length || apply ones_length).
    exists (lin (map (fun x => pow F x (@round_exp F r)) (keyn r)) 0).
    apply map_seq_ext. intros i Hi. rewrite lin_rank.
    replace (at_ ones i) with (@fone F); [|symmetry; unfold at_, ones; apply nth_repeat_lt; exact Hi]. ring.
  Qed.
  Lemma state_ramp s r : length s = 13 -> exists c, staten s (S r) = ramp c.
  Proof.
    intro Hs. cbn [staten]. rewrite round_eq by (apply keyn_length || apply staten_length, Hs).
    destruct (key_ramp r) as [c Hc]. rewrite Hc.
    exists (fadd (lin (map (fun x => pow F x (@round_exp F r)) (staten s r)) 0) c). apply map_seq_ext. intros i Hi. rewrite lin_rank. unfold at_, ramp.
    rewrite nth_map_seq by exact Hi. rewrite !times_fz. ring.
  Qed.
End Native.
