(** Pocklington's primality criterion (square-free factored part). *)
From Coq Require Import ZArith List Lia Znumtheory Zpow_facts.
From Verif Require Import Lib.ZMod.
Import ListNotations.
Open Scope Z_scope.

Lemma prime_divisor_exists n : 1 < n -> exists r, prime r /\ (r | n).
Proof.
  intros Hn.
  assert (H : forall k, 0 <= k -> forall n, 1 < n <= k -> exists r, prime r /\ (r | n)).
  { intros k Hk. pattern k. apply natlike_ind; [intros; lia| |exact Hk].
    clear k Hk. intros k Hk IH m Hm.
    destruct (prime_dec m) as [Hp|Hp]; [exists m; split; [exact Hp|apply Z.divide_refl]|].
    destruct (not_prime_divide m ltac:(lia) Hp) as (d & Hd & Hdiv).
    destruct (IH d ltac:(lia)) as (r & Hr & Hrd).
    exists r; split; [exact Hr|]. eapply Z.divide_trans; eassumption. }
  apply (H n); lia.
Qed.

(** A composite number has a prime divisor not above its square root. *)
Lemma prime_if_no_small n : 1 < n ->
  (forall r, prime r -> (r | n) -> n < r * r) -> prime n.
Proof.
  intros Hn H. destruct (prime_dec n) as [Hp|Hp]; [exact Hp|exfalso].
  destruct (not_prime_divide n Hn Hp) as (d & Hd & [e He]).
  assert (He1 : 1 < e) by nia.
  destruct (prime_divisor_exists d ltac:(lia)) as (r & Hr & Hrd).
  destruct (prime_divisor_exists e He1) as (s & Hs & Hse).
  assert (n < r * r) by (apply H; [exact Hr|]; apply Z.divide_trans with d; [exact Hrd|exists e; lia]).
  assert (n < s * s) by (apply H; [exact Hs|]; apply Z.divide_trans with e; [exact Hse|exists d; lia]).
  apply Z.divide_pos_le in Hrd; [|lia]. apply Z.divide_pos_le in Hse; [|lia].
  pose proof (prime_ge_2 _ Hr). pose proof (prime_ge_2 _ Hs).
  assert (r * s <= n) by nia. nia.
Qed.

Lemma pow_one_mod b k r : 1 < r -> 0 <= k -> b mod r = 1 -> b ^ k mod r = 1.
Proof.
  intros Hr Hk Hb. rewrite Zpower_mod by lia. rewrite Hb, Z.pow_1_l by exact Hk.
  apply Z.mod_1_l. exact Hr.
Qed.

(** If b^q = b^n = 1 with q, n coprime then b = 1. *)
Lemma coprime_orders b q n r : 1 < r -> 0 < q -> 0 < n -> rel_prime q n ->
  b ^ q mod r = 1 -> b ^ n mod r = 1 -> b mod r = 1.
Proof.
  intros Hr Hq Hn Hrel Eq En.
  destruct (rel_prime_bezout _ _ Hrel) as [u w E].
  (* make the coefficient of q positive by shifting *)
  set (k := Z.abs u + 1).
  assert (E' : (u + k * n) * q = 1 + (k * q - w) * n) by (ring_simplify; nia).
  assert (Hpos : 0 <= u + k * n) by (unfold k; nia).
  assert (Hpos2 : 0 <= k * q - w) by nia.
  assert (A : b ^ ((u + k * n) * q) mod r = 1).
  { rewrite Z.mul_comm, Z.pow_mul_r by lia. apply pow_one_mod; assumption. }
  rewrite E', Z.pow_add_r, Z.pow_1_r in A by nia.
  rewrite (Z.mul_comm _ n), Z.pow_mul_r in A by lia.
  rewrite <- Zmult_mod_idemp_r in A. rewrite pow_one_mod, Z.mul_1_r in A by assumption. exact A.
Qed.

Lemma poc_step N q a r : prime q -> (q | N - 1) -> 1 < N ->
  a ^ (N - 1) mod N = 1 -> rel_prime (a ^ ((N - 1) / q) - 1) N ->
  prime r -> (r | N) -> (q | r - 1).
Proof.
  intros Hq Hdiv HN Ha Hgcd Hr Hrn.
  pose proof (prime_ge_2 _ Hq) as Q2. pose proof (prime_ge_2 _ Hr) as R2.
  destruct (Zdivide_dec q (r - 1)) as [D|D]; [exact D|exfalso].
  assert (Hrel : rel_prime q (r - 1)) by (apply prime_rel_prime; assumption).
  set (b := a ^ ((N - 1) / q)).
  assert (Har : a ^ (N - 1) mod r = 1).
  { destruct Hrn as [c Hc]. 
    assert (exists z, a ^ (N-1) = 1 + z * N) as [z Hz].
    { exists (a ^ (N-1) / N). pose proof (Z.div_mod (a ^ (N-1)) N ltac:(lia)). lia. }
    rewrite Hz, Hc. replace (1 + z * (c * r)) with (1 + (z * c) * r) by ring.
    rewrite Z_mod_plus_full. apply Z.mod_1_l. lia. }
  assert (Hbq : b ^ q mod r = 1).
  { unfold b. rewrite <- Z.pow_mul_r; [|apply Z.div_pos; lia|lia].
    rewrite Z.mul_comm, <- Z_div_exact_full_2; [exact Har|lia|].
    apply Z.mod_divide; [lia|exact Hdiv]. }
  assert (Hb0 : b mod r <> 0).
  { intros E. rewrite Zpower_mod, E in Hbq by lia. rewrite Z.pow_0_l in Hbq by lia.
    rewrite Z.mod_0_l in Hbq by lia. lia. }
  pose proof (fermat_little r b Hr Hb0) as Hfl.
  assert (Hb1 : b mod r = 1).
  { apply (coprime_orders b q (r - 1) r); try assumption; lia. }
  assert (Hd : (r | b - 1)).
  { apply mod_eq_divide; [lia|]. rewrite Hb1. symmetry. apply Z.mod_1_l. lia. }
  destruct Hgcd as [_ _ Hg]. specialize (Hg r Hd Hrn).
  apply Z.divide_1_r_nonneg in Hg; lia.
Qed.

(** Distinct primes dividing n: their product divides n. *)
Lemma primes_product_divide (l : list Z) n :
  NoDup l -> Forall prime l -> Forall (fun q => (q | n)) l -> (Zprod l | n).
Proof.
  revert n. induction l as [|q l IH]; intros n Hnd Hp Hd; unfold Zprod in *; cbn [fold_right].
  - apply Z.divide_1_l.
  - inversion Hnd as [|? ? Hni Hnd']; subst. inversion Hp as [|? ? Hq Hp']; subst.
    inversion Hd as [|? ? Hqd Hd']; subst.
    specialize (IH n Hnd' Hp' Hd').
    destruct Hqd as [c Hc]. subst n.
    assert (Hrel : rel_prime (fold_right Z.mul 1 l) q).
    { clear - Hni Hp' Hq. induction l as [|s l IHl]; cbn [fold_right].
      - apply rel_prime_1.
      - apply rel_prime_sym, rel_prime_mult.
        + apply prime_rel_prime; [exact Hq|]. intros D.
          assert (prime s) by (inversion Hp'; assumption).
          assert (E : q = s) by (apply prime_div_prime; assumption).
          apply Hni. left. symmetry. exact E.
        + apply rel_prime_sym, IHl; [intros Hi; apply Hni; now right|now inversion Hp']. }
    rewrite Z.mul_comm in IH. apply Gauss in IH; [|exact Hrel].
    destruct IH as [d Hd2]. exists d. rewrite Hd2. ring.
Qed.

Theorem pocklington N (certs : list (Z * Z)) :
  1 < N ->
  NoDup (map fst certs) ->
  Forall (fun c => prime (fst c) /\ (N - 1) mod fst c = 0 /\
                   snd c ^ (N - 1) mod N = 1 /\
                   Z.gcd ((snd c ^ ((N - 1) / fst c)) mod N - 1) N = 1) certs ->
  N <= Zprod (map fst certs) * Zprod (map fst certs) ->
  prime N.
Proof.
  intros HN Hnd Hc Hbig. apply prime_if_no_small; [exact HN|].
  intros r Hr Hrn.
  assert (D : (Zprod (map fst certs) | r - 1)).
  { apply primes_product_divide; [exact Hnd| |].
    - apply Forall_map. eapply Forall_impl; [|exact Hc]. cbn. tauto.
    - apply Forall_map. eapply Forall_impl; [|exact Hc]. cbn. intros [q a]; cbn.
      intros (Hq & Hdiv & Ha & Hg). pose proof (prime_ge_2 _ Hq).
      apply (poc_step N q a r); try assumption.
      + apply Z.mod_divide; [lia|exact Hdiv].
      + apply Zgcd_1_rel_prime.
        set (x := a ^ ((N - 1) / q)) in *. transitivity (Z.gcd (x mod N - 1) N); [|exact Hg].
        rewrite (Z.gcd_comm (x - 1)), (Z.gcd_comm (x mod N - 1)).
        rewrite (Z.mod_eq x N) by lia.
        replace (x - N * (x / N) - 1) with (x - 1 + (- (x / N)) * N) by ring.
        rewrite Z.gcd_add_mult_diag_r. reflexivity. }
  pose proof (prime_ge_2 _ Hr).
  apply Z.divide_pos_le in D; [|lia].
  assert (0 <= Zprod (map fst certs)).
  { clear - Hc. unfold Zprod. induction Hc as [|[q a] l H _ IH]; cbn [map fold_right fst]; [lia|].
    destruct H as (Hq & _). cbn in Hq. pose proof (prime_ge_2 _ Hq). nia. }
  nia.
Qed.

(** Trial division for the small primes at the leaves. *)
Fixpoint trial (fuel : nat) (d n : Z) : bool :=
  match fuel with
  | O => false
  | S fuel => if n <? d * d then true else if n mod d =? 0 then false else trial fuel (d + 1) n
  end.

Lemma trial_sound fuel : forall d n, 1 < n -> 2 <= d ->
  (forall r, prime r -> (r | n) -> d <= r) -> trial fuel d n = true -> prime n.
Proof.
  induction fuel as [|fuel IH]; intros d n Hn Hd Hlow H; cbn [trial] in H; [discriminate|].
  destruct (Z.ltb_spec n (d * d)).
  - apply prime_if_no_small; [exact Hn|]. intros r Hr Hrn. specialize (Hlow r Hr Hrn). nia.
  - destruct (Z.eqb_spec (n mod d) 0); [discriminate|].
    apply (IH (d + 1) n); [exact Hn|lia| |exact H].
    intros r Hr Hrn. specialize (Hlow r Hr Hrn).
    destruct (Z.eq_dec r d) as [->|]; [|lia].
    exfalso. apply n0. apply Z.mod_divide; [lia|exact Hrn].
Qed.

Theorem trial_prime fuel n : 1 < n -> trial fuel 2 n = true -> prime n.
Proof.
  intros Hn H. apply (trial_sound fuel 2 n Hn); [lia| |exact H].
  intros r Hr _. apply prime_ge_2. exact Hr.
Qed.
