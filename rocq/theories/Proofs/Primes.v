(** The two field moduli are prime: Pocklington certificates checked by
    kernel computation on the arithmetic of Lib/Fast63.v. *)
From Coq Require Import ZArith List Lia Znumtheory Uint63.
From Verif Require Import Lib.ZMod Lib.Pocklington Lib.Fast63 Spec.FieldSpec.
Import ListNotations.
Open Scope Z_scope.

Definition poc_check1 (N : Z) (n : list int) (ninv : int) (q a : Z) : bool :=
  match (N - 1) / q, q with
  | Zpos e, Zpos qp =>
      let y := fpow n ninv (toM N a) e in
      match fromM N n ninv y, fromM N n ninv (fpow n ninv y qp) with
      | Some z, Some w => ((N - 1) mod q =? 0) && (Z.gcd (z - 1) N =? 1) && (w =? 1)
      | _, _ => false
      end
  | _, _ => false
  end%bool.

Lemma poc_check1_spec N n ninv q a : ctx_ok N n ninv = true -> poc_check1 N n ninv q a = true ->
  (N - 1) mod q = 0 /\ a ^ (N - 1) mod N = 1 /\ Z.gcd ((a ^ ((N - 1) / q)) mod N - 1) N = 1.
Proof.
  intros Hc. apply ctx_ok_spec in Hc. destruct Hc as (H1 & H2 & H3 & H4 & H5 & H6).
  unfold poc_check1. destruct ((N - 1) / q) as [|e|] eqn:Ee; try discriminate.
  destruct q as [|qp|]; try discriminate. remember (Zpos qp) as q eqn:Eq.
  cbv zeta. set (y := fpow n ninv (toM N a) e).
  assert (Ry : frep N y (a ^ Zpos e)).
  { apply frep_pow; try assumption. apply (frep_toM N n ninv); assumption. }
  assert (Rz : frep N (fpow n ninv y qp) ((a ^ Zpos e) ^ q)).
  { rewrite Eq. apply frep_pow; assumption. }
  destruct (fromM N n ninv y) as [z|] eqn:Ez; [|discriminate].
  destruct (fromM N n ninv (fpow n ninv y qp)) as [w|] eqn:Ew; [|discriminate].
  rewrite !Bool.andb_true_iff, !Z.eqb_eq. intros ((D & G) & ->).
  apply (fromM_spec N n ninv H1 H2 H3 H4 H5 y _ z Ry) in Ez.
  apply (fromM_spec N n ninv H1 H2 H3 H4 H5 _ _ 1 Rz) in Ew.
  split; [exact D|]. split; [|rewrite <- Ez; exact G].
  transitivity ((a ^ Zpos e) ^ q mod N); [|symmetry; exact Ew]. rewrite <- Z.pow_mul_r by (try rewrite Eq; lia). f_equal. f_equal.
  assert (0 < q) by (rewrite Eq; reflexivity). rewrite <- Ee. pose proof (Z.div_mod (N - 1) q ltac:(lia)). lia.
Qed.

Definition poc_check (N : Z) (n : list int) (ninv : int) (certs : list (Z * Z)) : bool :=
  (ctx_ok N n ninv && forallb (fun c => poc_check1 N n ninv (fst c) (snd c)) certs
   && (N <=? Zprod (map fst certs) * Zprod (map fst certs)))%bool.

Lemma poc_prime N ninv certs :
  NoDup (map fst certs) -> Forall (fun c => prime (fst c)) certs ->
  poc_check N (digits 9 N) ninv certs = true -> prime N.
Proof.
  intros Hnd Hp. unfold poc_check. rewrite !Bool.andb_true_iff, Z.leb_le.
  intros ((Hc & Hf) & Hb). rewrite forallb_forall in Hf.
  apply (pocklington N certs); [apply (ctx_ok_spec _ _ _ Hc)|exact Hnd| |exact Hb].
  apply Forall_forall. intros c Hin. split.
  - rewrite Forall_forall in Hp. apply Hp, Hin.
  - apply (poc_check1_spec _ _ _ _ _ Hc). apply Hf, Hin.
Qed.

Ltac nodup := repeat (constructor; [cbn; intuition discriminate|]); constructor.

Lemma prime_10319371 : prime 10319371.
Proof. apply (trial_prime 3400); [lia|]. vm_compute. reflexivity. Qed.
Lemma prime_239500759 : prime 239500759.
Proof. apply (trial_prime (N.to_nat 16000)); [lia|]. vm_compute. reflexivity. Qed.
Lemma prime_13408501 : prime 13408501.
Proof. apply (trial_prime 4000); [lia|]. vm_compute. reflexivity. Qed.
Lemma prime_2677 : prime 2677.
Proof. apply (trial_prime 100); [lia|]. vm_compute. reflexivity. Qed.

Lemma prime_c1 : prime 1232607588467.
Proof.
  apply (poc_prime _ 320146245%uint63 [(10319371, 2)]); [nodup| |vm_compute; reflexivity].
  constructor; [exact prime_10319371|constructor].
Qed.
Lemma prime_c2 : prime 110934682962031.
Proof.
  apply (poc_prime _ 574925169%uint63 [(1232607588467, 2)]); [nodup| |vm_compute; reflexivity].
  constructor; [exact prime_c1|constructor].
Qed.
Lemma prime_c3 : prime 47701913673673331.
Proof.
  apply (poc_prime _ 39482693%uint63 [(110934682962031, 2)]); [nodup| |vm_compute; reflexivity].
  constructor; [exact prime_c2|constructor].
Qed.
Lemma prime_c4 : prime 251293681232911107709.
Proof.
  apply (poc_prime _ 646405419%uint63 [(47701913673673331, 2)]); [nodup| |vm_compute; reflexivity].
  constructor; [exact prime_c3|constructor].
Qed.
Lemma prime_rp : prime 192230877197148812576275018793540833079827.
Proof.
  apply (poc_prime _ 628479973%uint63 [(251293681232911107709, 2); (239500759, 2)]);
    [nodup| |vm_compute; reflexivity].
  constructor; [exact prime_c4|]. constructor; [exact prime_239500759|constructor].
Qed.
Lemma prime_d1 : prime 141900164620995541861.
Proof.
  apply (poc_prime _ 464814483%uint63 [(13408501, 2); (2677, 2)]);
    [nodup| |vm_compute; reflexivity].
  constructor; [exact prime_13408501|]. constructor; [exact prime_2677|constructor].
Qed.
Lemma prime_d2 : prime 22136425680875304530317.
Proof.
  apply (poc_prime _ 663783099%uint63 [(141900164620995541861, 2)]); [nodup| |vm_compute; reflexivity].
  constructor; [exact prime_d1|constructor].
Qed.
Lemma prime_d3 : prime 354182810894004872485073.
Proof.
  apply (poc_prime _ 910933967%uint63 [(22136425680875304530317, 2)]); [nodup| |vm_compute; reflexivity].
  constructor; [exact prime_d2|constructor].
Qed.
Lemma prime_rq : prime 2955369790000036875180183355219370645532736961.
Proof.
  apply (poc_prime _ 1023634879%uint63 [(354182810894004872485073, 2)]); [nodup| |vm_compute; reflexivity].
  constructor; [exact prime_d3|constructor].
Qed.

Theorem p_prime : prime p_modulus.
Proof.
  apply (poc_prime _ 1073741823%uint63 [(192230877197148812576275018793540833079827, 2)]);
    [nodup| |vm_compute; reflexivity].
  constructor; [exact prime_rp|constructor].
Qed.
Theorem q_prime : prime q_modulus.
Proof.
  apply (poc_prime _ 1073741823%uint63 [(2955369790000036875180183355219370645532736961, 2)]);
    [nodup| |vm_compute; reflexivity].
  constructor; [exact prime_rq|constructor].
Qed.
