(** Finite sums and powers in a field. *)
From Coq Require Import List ZArith Arith Lia Ring Field.
From Verif Require Import Model.FieldTrait Model.Util Spec.FieldLaws Spec.UtilSpec Proofs.FieldGen Proofs.ZtoF.
Import ListNotations.
Open Scope nat_scope.

Section Sums.
  Context {F : Field} {p v} (OL : OpsLaws F p v).
  Add Field Ff : (ffield OL).
  Notation "a + b" := (fadd a b). Notation "a * b" := (fmul a b). Notation "a - b" := (fsub a b).

  Lemma fsum_ext (f g : nat -> F) n : (forall i, i < n -> f i = g i) -> fsum f n = fsum g n.
  Proof. induction n as [|n IH]; intro H; cbn [fsum]; [reflexivity|]. rewrite IH, (H n) by (intros; try apply H; lia). reflexivity. Qed.
  Lemma fsum_zero (f : nat -> F) n : (forall i, i < n -> f i = fzero) -> fsum f n = fzero.
  Proof. induction n as [|n IH]; intro H; cbn [fsum]; [reflexivity|]. rewrite IH, (H n) by (intros; try apply H; lia). ring. Qed.
  Lemma fsum_add (f g : nat -> F) n : fsum (fun i => f i + g i) n = fsum f n + fsum g n.
  Proof. induction n as [|n IH]; cbn [fsum]; [ring|]. rewrite IH. ring. Qed.
  Lemma fsum_sub (f g : nat -> F) n : fsum (fun i => f i - g i) n = fsum f n - fsum g n.
  Proof. induction n as [|n IH]; cbn [fsum]; [ring|]. rewrite IH. ring. Qed.
  Lemma fsum_mul_l c (f : nat -> F) n : fsum (fun i => c * f i) n = c * fsum f n.
  Proof. induction n as [|n IH]; cbn [fsum]; [ring|]. rewrite IH. ring. Qed.
  Lemma fsum_mul_r c (f : nat -> F) n : fsum (fun i => f i * c) n = fsum f n * c.
  Proof. induction n as [|n IH]; cbn [fsum]; [ring|]. rewrite IH. ring. Qed.
  Lemma fsum_app (f : nat -> F) n m : fsum f (n + m)%nat = fsum f n + fsum (fun i => f (n + i)%nat) m.
  Proof.
    induction m as [|m IH]; [rewrite Nat.add_0_r; cbn [fsum]; ring|]. rewrite Nat.add_succ_r. cbn [fsum]. rewrite IH. ring.
  Qed.
  Lemma fsum_S_l (f : nat -> F) n : fsum f (S n) = f 0 + fsum (fun i => f (S i)) n.
  Proof. change (S n) with (1 + n)%nat. rewrite fsum_app. cbn [fsum Nat.add]. ring. Qed.
  Lemma fsum_swap (f : nat -> nat -> F) n m : fsum (fun i => fsum (f i) m) n = fsum (fun j => fsum (fun i => f i j) n) m.
  Proof.
    induction n as [|n IH]; cbn [fsum]; [symmetry; apply fsum_zero; reflexivity|]. rewrite IH, <- fsum_add. reflexivity.
  Qed.
  Lemma fsum_even_odd (f : nat -> F) n : fsum f (2 * n)%nat = fsum (fun i => f (2 * i)%nat) n + fsum (fun i => f (2 * i + 1)%nat) n.
  Proof.
    induction n as [|n IH]; [change (2 * 0)%nat with 0; cbn [fsum]; ring|]. replace (2 * S n)%nat with (S (S (2 * n))) by lia.
    cbn [fsum]. rewrite IH. replace (S (2 * n)) with (2 * n + 1)%nat by lia. ring.
  Qed.
  Lemma fsum_blocks (f : nat -> F) n m : fsum f (n * m)%nat = fsum (fun i => fsum (fun j => f (i * m + j)%nat) m) n.
  Proof.
    induction n as [|n IH]; [reflexivity|]. cbn [Nat.mul]. rewrite Nat.add_comm, fsum_app. cbn [fsum]. rewrite IH. reflexivity.
  Qed.
  Lemma fsum_delta (f : nat -> F) k n : k < n -> (forall i, i < n -> i <> k -> f i = fzero) -> fsum f n = f k.
  Proof.
    induction n as [|n IH]; intros Hk H; [lia|]. cbn [fsum]. destruct (Nat.eq_dec k n) as [->|Hne].
    - rewrite fsum_zero; [ring|]. intros i Hi. apply H; lia.
    - rewrite IH, (H n); [ring|lia|lia|lia|]. intros i Hi Hn. apply H; lia.
  Qed.
  Lemma fsum_pad (f : nat -> F) n m : n <= m -> (forall i, n <= i < m -> f i = fzero) -> fsum f m = fsum f n.
  Proof.
    intros H Hz. replace m with (n + (m - n))%nat by lia. rewrite fsum_app, (fsum_zero (fun i => f (n + i)%nat)); [ring|].
    intros i Hi. apply Hz. lia.
  Qed.

  Lemma fpow_1 (x : F) : fpow x 1 = x. Proof. cbn [fpow]. ring. Qed.
  Lemma fpow_add (x : F) n m : fpow x (n + m)%nat = fpow x n * fpow x m.
  Proof. induction n as [|n IH]; cbn [Nat.add fpow]; [ring|]. rewrite IH. ring. Qed.
  Lemma fpow_mul (x : F) n m : fpow x (n * m)%nat = fpow (fpow x n) m.
  Proof.
    induction m as [|m IH]; [rewrite Nat.mul_0_r; reflexivity|]. rewrite Nat.mul_succ_r, fpow_add, IH. cbn [fpow]. ring.
  Qed.
  Lemma fpow_one n : fpow (fone : F) n = fone.
  Proof. induction n as [|n IH]; cbn [fpow]; [reflexivity|]. rewrite IH. ring. Qed.
  Lemma fpow_distr (x y : F) n : fpow (x * y) n = fpow x n * fpow y n.
  Proof. induction n as [|n IH]; cbn [fpow]; [ring|]. rewrite IH. ring. Qed.
  Lemma fpow_zpow (x : F) n : fpow x n = zpow x (Z.of_nat n).
  Proof.
    induction n as [|n IH]; [reflexivity|]. rewrite Nat2Z.inj_succ, (zpow_succ OL) by lia. cbn [fpow]. rewrite IH. reflexivity.
  Qed.
  Lemma pow64 (x : F) n : (Z.of_nat n < 2 ^ 64)%Z -> pow F x (exp64 n) = fpow x n.
  Proof.
    intro H. rewrite fpow_zpow, (pow_zpow OL).
    - f_equal. unfold limbs_val, exp64. cbn [l0 l1 l2 l3]. lia.
    - unfold limbs_wf, exp64. cbn [l0 l1 l2 l3]. lia.
  Qed.
  Lemma fpow_nonzero (x : F) n : x <> fzero -> fpow x n <> fzero.
  Proof.
    intro H. induction n as [|n IH]; cbn [fpow]; [apply (fone_neq_zero OL)|]. intro E. apply (fmul_zero OL) in E. tauto.
  Qed.
  Lemma geometric (x : F) n : (x - fone) * fsum (fpow x) n = fpow x n - fone.
  Proof.
    induction n as [|n IH]; cbn [fsum fpow]; [ring|].
    transitivity ((x - fone) * fsum (fpow x) n + (x - fone) * fpow x n); [ring|]. rewrite IH. ring.
  Qed.
  Lemma fsum_const (c : F) n : fsum (fun _ => c) n = fz (Z.of_nat n) * c.
  Proof.
    induction n as [|n IH]; [cbn [fsum]; change (fz (Z.of_nat 0)) with (@fzero F); ring|]. cbn [fsum]. rewrite IH.
    rewrite Nat2Z.inj_succ, <- Z.add_1_r, (fz_add OL). change (fz 1) with (@fone F). ring.
  Qed.

  (** primitive roots of order a power of two *)
  Lemma root_minus_one (w : F) k : primitive_root w (2 ^ S k) -> fpow w (2 ^ k) = fneg fone.
  Proof.
    intros [H1 H2]. assert (H0 : 2 ^ k <> 0) by (apply Nat.pow_nonzero; lia).
    destruct (square_one OL (fpow w (2 ^ k))) as [H|H]; [| |exact H].
    - rewrite <- fpow_add. replace (2 ^ k + 2 ^ k)%nat with (2 ^ S k) by (cbn [Nat.pow]; lia). exact H1.
    - exfalso. revert H. apply H2. cbn [Nat.pow]. lia.
  Qed.
  Lemma minus_one_root (w : F) k : fpow w (2 ^ k) = fneg fone -> primitive_root w (2 ^ S k).
  Proof.
    intro H. assert (Hone : fpow w (2 ^ S k) = fone).
    { cbn [Nat.pow]. rewrite Nat.mul_comm. cbn [Nat.mul]. rewrite fpow_mul, H. cbn [fpow]. ring. }
    split; [exact Hone|].
    intros i Hi E.
    (* the 2-adic valuation of i is at most k *)
    assert (HK : forall n i, 0 < i < 2 ^ n -> exists a b, i = (2 ^ a * (2 * b + 1))%nat /\ a < n).
    { clear. induction n as [|n IH]; intros i H; [cbn in H; lia|]. destruct (Nat.Even_or_Odd i) as [[j ->]|[j ->]].
      - destruct (IH j) as (a & b & -> & Ha); [cbn [Nat.pow] in H; lia|]. exists (S a), b. split; [cbn [Nat.pow]; ring|lia].
      - exists 0, j. split; [cbn [Nat.pow]; lia|lia]. }
    destruct (HK (S k) i Hi) as (a & b & -> & Ha).
    assert (E2 : fpow w (2 ^ k * (2 * b + 1)) = fone).
    { replace (2 ^ k * (2 * b + 1))%nat with ((2 ^ a * (2 * b + 1)) * 2 ^ (k - a))%nat.
      - rewrite fpow_mul, E. apply fpow_one.
      - replace (2 ^ k)%nat with (2 ^ a * 2 ^ (k - a))%nat by (rewrite <- Nat.pow_add_r; f_equal; lia). ring. }
    rewrite fpow_mul, H in E2. rewrite fpow_add, fpow_mul in E2. cbn [fpow] in E2.
    replace (fneg fone * (fneg fone * fone)) with (@fone F) in E2 by ring. rewrite fpow_one in E2.
    apply (neg_one_neq_one OL). rewrite <- E2 at 2. ring.
  Qed.
  Lemma primitive_pow (w : F) n a b : primitive_root w (a * b) -> n = a -> 0 < a -> 0 < b -> primitive_root (fpow w n) b.
  Proof.
    intros [H1 H2] -> Ha Hb. split; [rewrite <- fpow_mul; exact H1|]. intros i Hi. rewrite <- fpow_mul. apply H2. nia.
  Qed.
  Lemma primitive_nonzero (w : F) n : 0 < n -> primitive_root w n -> w <> fzero.
  Proof.
    intros Hn [H1 _] ->. destruct n as [|n]; [lia|]. cbn [fpow] in H1. apply (fone_neq_zero OL). rewrite <- H1. ring.
  Qed.
End Sums.
