(** The parallel FFT, and the choice between the two. *)
From Coq Require Import List Bool ZArith Arith Lia Ring Field.
From Verif Require Import Model.FieldTrait Model.Threads Model.Util Spec.FieldLaws Spec.UtilSpec Proofs.FieldGen Proofs.ThreadsP Proofs.SumP Proofs.FftP.
Import ListNotations.
Open Scope nat_scope.

Lemma fold_steps_some {A B} (f : A -> B -> B) (l : list A) (x : B) :
  fold_left (fun s g => g s) (map (fun i st => option_map (f i) st) l) (Some x) = Some (fold_left (fun s i => f i s) l x).
Proof. revert x. induction l as [|i l IH]; intro x; [reflexivity|]. cbn [map fold_left option_map]. apply IH. Qed.
Lemma all_some_map {A B} (f : A -> B) (g : A -> option B) l : (forall x, In x l -> g x = Some (f x)) -> all_some (map g l) = Some (map f l).
Proof.
  induction l as [|x l IH]; intro H; [reflexivity|]. unfold all_some in *. cbn [map fold_right]. rewrite (H x) by (left; reflexivity).
  rewrite IH by (intros; apply H; right; assumption). reflexivity.
Qed.

Section Parallel.
  Context {F : Field} {p v} (OL : OpsLaws F p v).
  Add Field Ff : (ffield OL).
  Notation "a [+] b" := (fadd a b) (at level 50, left associativity). Notation "a [*] b" := (fmul a b) (at level 40, left associativity).
  Variables (a0 : list F) (omega : F) (L K : nat).
  Hypothesis a0_len : length a0 = 2 ^ L.
  Hypothesis L_small : L < 32.
  Hypothesis root : primitive_root omega (2 ^ L).
  Hypothesis K_le : K <= L.
  Let ln := L - K.
  Let n_split : 2 ^ L = 2 ^ K * 2 ^ ln.
  Proof. unfold ln. rewrite <- Nat.pow_add_r. f_equal. lia. Qed.

  Section Thread.
    Variable j : nat.
    Hypothesis j_lt : j < 2 ^ K.
    Definition term (i s : nat) : F := nth (i + s * 2 ^ ln) a0 fzero [*] fpow omega (j * (i + s * 2 ^ ln)).

    Lemma shuffle_inner i tmp elt : i < 2 ^ ln -> length tmp = 2 ^ ln -> elt = fpow omega (j * i) -> forall c, c <= 2 ^ K ->
      let st := fold_left (fun '(tmp, elt) s =>
        let idx := ((i + s * 2 ^ ln) mod 2 ^ L)%nat in
        let t := fmul (nth idx a0 fzero) elt in
        (at_index i (fun x => fadd x t) tmp, fmul elt (fpow omega (j * 2 ^ ln)))) (seq 0 c) (tmp, elt) in
      length (fst st) = 2 ^ ln /\ snd st = fpow omega (j * i + c * (j * 2 ^ ln)) /\
      forall k, nth k (fst st) fzero = if Nat.eqb k i then nth k tmp fzero [+] fsum (term i) c else nth k tmp fzero.
    Proof.
      intros Hi HL He. induction c as [|c IH]; intro Hc; cbv zeta.
      - cbn [seq fold_left fst snd fsum]. split; [exact HL|]. split; [rewrite He; f_equal; lia|]. intro k.
        destruct (Nat.eqb k i); [ring|reflexivity].
      - rewrite seq_S, fold_left_app. cbn [fold_left Nat.add]. cbv zeta in IH. destruct (IH ltac:(lia)) as (I1 & I2 & I3). clear IH.
        destruct (fold_left _ (seq 0 c) (tmp, elt)) as [tmp' e']. cbn [fst snd] in *. subst e'.
        rewrite at_index_length. split; [exact I1|]. split.
        + rewrite <- (fpow_add OL). f_equal. lia.
        + intro k. rewrite at_index_nth, I1. rewrite (proj2 (Nat.ltb_lt i (2 ^ ln)) Hi).
          assert (Hidx : i + c * 2 ^ ln < 2 ^ L).
          { rewrite n_split. assert (S c * 2 ^ ln <= 2 ^ K * 2 ^ ln) by (apply Nat.mul_le_mono_r; exact Hc). cbn [Nat.mul] in *. lia. }
          rewrite Nat.mod_small by exact Hidx. rewrite !I3.
          destruct (Nat.eqb_spec k i) as [->|Hne]; [|reflexivity]. rewrite Nat.eqb_refl. cbn [fsum]. change (term i c) with (nth (i + c * 2 ^ ln) a0 fzero [*] fpow omega (j * (i + c * 2 ^ ln))).
          replace (j * (i + c * 2 ^ ln)) with (j * i + c * (j * 2 ^ ln)) by ring. ring.
    Qed.
    Lemma step_period : fpow omega (2 ^ K * (j * 2 ^ ln)) = fone.
    Proof.
      replace (2 ^ K * (j * 2 ^ ln)) with (2 ^ L * j) by (rewrite n_split; ring).
      rewrite (fpow_mul OL). destruct root as [-> _]. apply (fpow_one OL).
    Qed.
    Lemma shuffle_outer n : n <= 2 ^ ln ->
      let st := fold_left (fun st i => fft_shuffle a0 L ln (2 ^ K) i (fpow omega (j * 2 ^ ln)) (fpow omega j) st) (seq 0 n) (repeat fzero (2 ^ ln), fone) in
      length (fst st) = 2 ^ ln /\ snd st = fpow omega (j * n) /\
      forall k, nth k (fst st) fzero = if k <? n then fsum (term k) (2 ^ K) else fzero.
    Proof.
      induction n as [|n IH]; intro Hn; cbv zeta.
      - cbn [seq fold_left fst snd]. rewrite repeat_length, Nat.mul_0_r. split; [reflexivity|]. split; [reflexivity|].
        intro k. cbn [Nat.ltb Nat.leb]. clear. generalize (2 ^ ln) as m. intro m. revert k. induction m as [|m IH]; intros [|k]; cbn [repeat nth]; try reflexivity. apply IH.
      - rewrite seq_S, fold_left_app. cbn [fold_left Nat.add]. cbv zeta in IH. destruct (IH ltac:(lia)) as (I1 & I2 & I3). clear IH.
        destruct (fold_left _ (seq 0 n) _) as [tmp e]. cbn [fst snd] in *. unfold fft_shuffle.
        destruct (shuffle_inner n tmp e ltac:(lia) I1 I2 (2 ^ K) (le_n _)) as (J1 & J2 & J3). cbv zeta in J1, J2, J3.
        destruct (fold_left _ (seq 0 (2 ^ K)) (tmp, e)) as [tmp' e']. cbn [fst snd] in *. split; [exact J1|]. split.
        + rewrite J2, (fpow_add OL), step_period. replace (j * S n) with (j * n + j) by lia. rewrite (fpow_add OL). ring.
        + intro k. rewrite J3, I3. destruct (Nat.eqb_spec k n) as [->|Hne].
          * destruct (Nat.ltb_spec n n); [lia|]. destruct (Nat.ltb_spec n (S n)); [|lia]. ring.
          * destruct (Nat.ltb_spec k n), (Nat.ltb_spec k (S n)); try lia; reflexivity.
    Qed.
    Definition sub_input : list F := map (fun i => fsum (term i) (2 ^ K)) (seq 0 (2 ^ ln)).
    Lemma small64 x : x <= 2 ^ L -> (Z.of_nat x < 2 ^ 64)%Z.
    Proof. intro H. pose proof (pow2_lt L L_small). lia. Qed.
    Lemma thread_result : t_result (fft_thread a0 omega (pow F omega (exp64 (2 ^ K))) L ln (2 ^ K) j)
      = Some (map (fun k => eval_at sub_input (fpow (fpow omega (2 ^ K)) k)) (seq 0 (2 ^ ln)), fpow omega (j * 2 ^ ln)).
    Proof.
      unfold t_result, fft_thread. cbn [t_todo t_chunk].
      assert (HK : 2 ^ K <= 2 ^ L) by (apply Nat.pow_le_mono_r; lia).
      rewrite !(pow64 OL) by (apply small64; try exact HK; rewrite ?n_split; nia).
      rewrite fold_left_app, fold_steps_some. cbn [fold_left].
      destruct (shuffle_outer (2 ^ ln) (le_n _)) as (I1 & I2 & I3). cbv zeta in I1, I2, I3.
      destruct (fold_left _ (seq 0 (2 ^ ln)) _) as [tmp e]. cbn [fst snd] in *. subst e.
      assert (E : tmp = sub_input).
      { apply (nth_ext _ _ fzero fzero); [unfold sub_input; rewrite map_length, seq_length; exact I1|].
        intros k Hk. rewrite I1 in Hk. rewrite I3. unfold sub_input. rewrite nth_map_seq by exact Hk.
        destruct (Nat.ltb_spec k (2 ^ ln)); [reflexivity|lia]. }
      rewrite E, (serial_fft_eq OL sub_input (fpow omega (2 ^ K)) ln); [reflexivity| | |].
      - unfold sub_input. rewrite map_length, seq_length. reflexivity.
      - unfold ln. lia.
      - apply (primitive_pow OL omega (2 ^ K) (2 ^ K) (2 ^ ln)); [rewrite <- n_split; exact root|reflexivity|apply pow2_pos|apply pow2_pos].
    Qed.
    Lemma sub_eval k : k < 2 ^ ln -> eval_at sub_input (fpow (fpow omega (2 ^ K)) k) = eval_at a0 (fpow omega (k * 2 ^ K + j)).
    Proof.
      intro Hk. unfold eval_at. rewrite a0_len. unfold sub_input at 2. rewrite map_length, seq_length, n_split, (fsum_blocks OL).
      rewrite <- (fsum_swap OL). apply (fsum_ext (F := F)). intros i Hi. unfold coeff, sub_input. rewrite nth_map_seq by exact Hi.
      rewrite <- (fsum_mul_r OL). apply (fsum_ext (F := F)). intros s Hs. unfold term.
      rewrite (Nat.add_comm i (s * 2 ^ ln)). rewrite <- !(fpow_mul OL).
      replace ((k * 2 ^ K + j) * (s * 2 ^ ln + i)) with (j * (s * 2 ^ ln + i) + (2 ^ K * (k * i) + (2 ^ K * 2 ^ ln) * (k * s))) by ring.
      rewrite (fpow_add OL omega (j * (s * 2 ^ ln + i))), (fpow_add OL omega (2 ^ K * (k * i))).
      rewrite (fpow_mul OL omega (2 ^ K * 2 ^ ln)), <- n_split. destruct root as [-> _]. rewrite (fpow_one OL). ring.
    Qed.
  End Thread.

  Lemma parallel_fft_eq sched : parallel_fft sched a0 omega L K = Some (map (fun k => eval_at a0 (fpow omega k)) (seq 0 (2 ^ L))).
  Proof.
    unfold parallel_fft. rewrite (proj2 (Nat.leb_le K L) K_le). rewrite scope_eq. fold ln.
    rewrite map_map. rewrite (all_some_map (fun j => (map (fun k => eval_at (sub_input j) (fpow (fpow omega (2 ^ K)) k)) (seq 0 (2 ^ ln)), fpow omega (j * 2 ^ ln)))).
    2: { intros j Hj. apply in_seq in Hj. apply thread_result. lia. }
    f_equal. rewrite a0_len. apply map_ext_in. intros idx Hidx. apply in_seq in Hidx.
    assert (HK : 0 < 2 ^ K) by apply pow2_pos.
    assert (Hm : idx mod 2 ^ K < 2 ^ K) by (apply Nat.mod_upper_bound; lia).
    assert (Hd : idx / 2 ^ K < 2 ^ ln) by (apply Nat.div_lt_upper_bound; [lia|rewrite <- n_split; lia]).
    rewrite nth_map_seq by exact Hm. cbn [fst]. rewrite nth_map_seq by exact Hd. rewrite sub_eval by assumption.
    do 2 f_equal. pose proof (Nat.div_mod idx (2 ^ K) ltac:(lia)). lia.
  Qed.
End Parallel.

Section Best.
  Context {F : Field} {p v} (OL : OpsLaws F p v).
  Theorem best_fft_eq M site (a : list F) omega L : length a = 2 ^ L -> L < 32 -> primitive_root omega (2 ^ L) ->
    best_fft M site a omega L = Some (map (fun k => eval_at a (fpow omega k)) (seq 0 (2 ^ L))).
  Proof.
    intros H1 H2 H3. unfold best_fft. destruct (Nat.leb_spec L (log2_floor (cpus M))) as [H|H].
    - apply (serial_fft_eq OL); assumption.
    - apply (parallel_fft_eq OL); try assumption. lia.
  Qed.
End Best.
