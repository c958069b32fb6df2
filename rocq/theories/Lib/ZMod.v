(** Elementary number theory over Z used below: Fermat's little theorem,
    cancellation, square roots of one, powers. Nothing here is about the code. *)
From Coq Require Import ZArith List Lia Znumtheory Permutation Zpow_facts.
Import ListNotations.
Open Scope Z_scope.

Lemma mod_eq_divide a b m : m <> 0 -> (a mod m = b mod m <-> (m | a - b)).
Proof.
  intros Hm. split; intros H.
  - exists (a / m - b / m). rewrite (Z.div_mod a m Hm), (Z.div_mod b m Hm) at 1. rewrite H. ring.
  - destruct H as [k Hk]. replace a with (b + k * m) by lia. apply Z_mod_plus_full.
Qed.

Lemma mul_cancel_mod a b c m : 0 < m -> rel_prime m c ->
  (a * c) mod m = (b * c) mod m -> a mod m = b mod m.
Proof.
  intros Hm Hr H. apply mod_eq_divide; [lia|]. apply mod_eq_divide in H; [|lia].
  replace (a * c - b * c) with (c * (a - b)) in H by ring.
  apply Gauss with (b := c); assumption.
Qed.

Lemma prime_mul_zero p a b : prime p -> (a * b) mod p = 0 -> a mod p = 0 \/ b mod p = 0.
Proof.
  intros Hp H. pose proof (prime_ge_2 p Hp).
  apply Z.mod_divide in H; [|lia].
  destruct (prime_mult p Hp a b H); [left|right]; apply Z.mod_divide; lia || assumption.
Qed.

Lemma prime_rel_prime_mod p a : prime p -> a mod p <> 0 -> rel_prime p a.
Proof.
  intros Hp H. apply prime_rel_prime; [exact Hp|]. intros D. apply H.
  apply Z.mod_divide; [pose proof (prime_ge_2 p Hp); lia|exact D].
Qed.

(** ** Fermat's little theorem *)
Definition Zrange (n : nat) : list Z := map Z.of_nat (seq 1 n).
Definition Zprod (l : list Z) : Z := fold_right Z.mul 1 l.

Lemma Zrange_in n x : In x (Zrange n) <-> 1 <= x <= Z.of_nat n.
Proof.
  unfold Zrange. rewrite in_map_iff. split.
  - intros (k & <- & Hk). apply in_seq in Hk. lia.
  - intros H. exists (Z.to_nat x). split. lia. apply in_seq. lia.
Qed.

Lemma Zrange_NoDup n : NoDup (Zrange n).
Proof. unfold Zrange. apply FinFun.Injective_map_NoDup; [intros x y; lia|apply seq_NoDup]. Qed.

Lemma Zprod_perm l l' : Permutation l l' -> Zprod l = Zprod l'.
Proof. induction 1; cbn [Zprod fold_right] in *; unfold Zprod in *; cbn [fold_right]; try lia. Qed.

Lemma Zprod_map_mul a m l : 0 < m ->
  Zprod (map (fun x => (a * x) mod m) l) mod m = (a ^ Z.of_nat (length l) * Zprod l) mod m.
Proof.
  intros Hm. induction l as [|x l IH]; unfold Zprod in *; cbn [map fold_right length].
  - reflexivity.
  - rewrite Nat2Z.inj_succ, Z.pow_succ_r by lia.
    rewrite Zmult_mod, Zmod_mod, IH, <- Zmult_mod. f_equal. ring.
Qed.

Lemma Zprod_rel_prime p l : prime p -> (forall x, In x l -> x mod p <> 0) -> Zprod l mod p <> 0.
Proof.
  intros Hp. induction l as [|x l IH]; intros H; unfold Zprod in *; cbn [fold_right].
  - rewrite Z.mod_1_l; [lia|pose proof (prime_ge_2 p Hp); lia].
  - intros E. apply prime_mul_zero in E; [|exact Hp]. destruct E as [E|E].
    + apply (H x); [now left|exact E].
    + apply IH; [|exact E]. intros y Hy. apply H. now right.
Qed.

Theorem fermat_little p a : prime p -> a mod p <> 0 -> (a ^ (p - 1)) mod p = 1.
Proof.
  intros Hp Ha. pose proof (prime_ge_2 p Hp) as H2.
  set (n := Z.to_nat (p - 1)). set (l := Zrange n).
  assert (Hn : Z.of_nat n = p - 1) by (unfold n; lia).
  assert (Hmod : forall x, In x l -> x mod p <> 0).
  { intros x Hx. apply Zrange_in in Hx. rewrite Z.mod_small; lia. }
  assert (Hperm : Permutation (map (fun x => (a * x) mod p) l) l).
  { apply NoDup_Permutation_bis.
    - assert (Hinj : forall l', (forall x, In x l' -> In x l) -> NoDup l' ->
                NoDup (map (fun x => (a * x) mod p) l')).
      { induction l' as [|x l' IH]; intros Hin Hnd; cbn [map]; constructor.
        - intros Hi. apply in_map_iff in Hi as (y & Hy & Hy').
          assert (E : (y * a) mod p = (x * a) mod p) by (rewrite (Z.mul_comm y), (Z.mul_comm x); exact Hy).
          apply mul_cancel_mod in E; [|lia|apply prime_rel_prime_mod; assumption].
          assert (Hx : In x l) by (apply Hin; now left). assert (Hyl : In y l) by (apply Hin; now right).
          apply Zrange_in in Hx. apply Zrange_in in Hyl.
          rewrite !Z.mod_small in E by lia. subst y.
          inversion Hnd; contradiction.
        - apply IH. intros z Hz; apply Hin; now right. now inversion Hnd. }
      apply Hinj; [auto|]. apply Zrange_NoDup.
    - rewrite map_length. lia.
    - intros y Hy. apply in_map_iff in Hy as (x & <- & Hx).
      apply Zrange_in. pose proof (Z.mod_pos_bound (a * x) p ltac:(lia)).
      assert ((a * x) mod p <> 0).
      { intros E. apply prime_mul_zero in E; [|exact Hp]. destruct E; [contradiction|].
        now apply (Hmod x). }
      lia. }
  pose proof (Zprod_map_mul a p l ltac:(lia)) as HP.
  rewrite (Zprod_perm _ _ Hperm) in HP.
  assert (Hlen : Z.of_nat (length l) = p - 1).
  { unfold l, Zrange. rewrite map_length, seq_length. exact Hn. }
  rewrite Hlen in HP.
  assert (E : (1 * Zprod l) mod p = (a ^ (p - 1) * Zprod l) mod p) by (rewrite Z.mul_1_l; exact HP).
  apply mul_cancel_mod in E; [|lia|].
  - rewrite Z.mod_1_l in E by lia. now symmetry.
  - apply prime_rel_prime_mod; [exact Hp|]. apply Zprod_rel_prime; assumption.
Qed.

Lemma sqrt_one_mod p x : prime p -> (x * x) mod p = 1 -> x mod p = 1 \/ x mod p = p - 1.
Proof.
  intros Hp H. pose proof (prime_ge_2 p Hp) as H2.
  assert (E : ((x - 1) * (x + 1)) mod p = 0).
  { replace ((x - 1) * (x + 1)) with (x * x - 1) by ring.
    rewrite Zminus_mod, H. rewrite (Z.mod_small 1) by lia. apply Z.mod_0_l. lia. }
  apply prime_mul_zero in E; [|exact Hp]. destruct E as [E|E].
  - left. replace x with ((x - 1) + 1) by ring. rewrite Zplus_mod, E.
    rewrite (Z.mod_small 1) by lia. apply Z.mod_small. lia.
  - right. replace x with ((x + 1) - 1) by ring. rewrite Zminus_mod, E.
    rewrite (Z.mod_small 1) by lia. symmetry. apply (Z.mod_unique_pos _ p (-1)); lia.
Qed.

Lemma pow_mod a k m : 0 < m -> 0 <= k -> (a mod m) ^ k mod m = a ^ k mod m.
Proof. intros Hm Hk. symmetry. apply Zpower_mod. exact Hm. Qed.
