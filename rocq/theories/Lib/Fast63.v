(** Fast modular arithmetic on lists of 30-bit limbs held in primitive 63-bit
    integers, used only to evaluate large constant computations (primality
    certificates, the order of the curve generators) within the kernel.
    Every operation is proved correct against Z; nothing here models the code. *)
From Coq Require Import ZArith List Lia Uint63 Zpow_facts.
From Verif Require Import Lib.ZMod.
Import ListNotations.
Open Scope Z_scope.

Notation toZ := Uint63.to_Z.
Definition B : Z := 2 ^ 30.
Definition lmask : int := 1073741823%uint63.

Fixpoint eval (l : list int) : Z :=
  match l with [] => 0 | x :: l => toZ x + B * eval l end.
Definition lb (x : int) : Prop := toZ x < B.
Definition bounded (l : list int) : Prop := Forall lb l.

Lemma wB_val : wB = 9223372036854775808. Proof. reflexivity. Qed.
Lemma B_val : B = 1073741824. Proof. reflexivity. Qed.
Lemma lmask_val : toZ lmask = 2 ^ 30 - 1. Proof. reflexivity. Qed.

Definition lo30 (t : int) : int := Uint63.land t lmask.
Definition hi30 (t : int) : int := Uint63.lsr t 30.

Lemma lo30_spec t : toZ (lo30 t) = toZ t mod B.
Proof.
  unfold lo30. rewrite land_spec', lmask_val. change (2 ^ 30 - 1) with (Z.ones 30).
  rewrite Z.land_ones by lia. reflexivity.
Qed.
Lemma hi30_spec t : toZ (hi30 t) = toZ t / B.
Proof. unfold hi30. rewrite lsr_spec. reflexivity. Qed.
Lemma split30 t : toZ (lo30 t) + B * toZ (hi30 t) = toZ t.
Proof. rewrite lo30_spec, hi30_spec. pose proof (Z.div_mod (toZ t) B ltac:(rewrite B_val; lia)). lia. Qed.
Lemma lo30_lb t : lb (lo30 t).
Proof. unfold lb. rewrite lo30_spec. apply Z.mod_pos_bound. reflexivity. Qed.

Lemma tZ_bound x : 0 <= toZ x < wB. Proof. apply to_Z_bounded. Qed.

Lemma step_spec a x y c : lb a -> lb x -> lb y -> lb c ->
  toZ (add (add a (mul x y)) c) = toZ a + toZ x * toZ y + toZ c /\
  lb (hi30 (add (add a (mul x y)) c)).
Proof.
  unfold lb. intros Ha Hx Hy Hc.
  pose proof (tZ_bound a). pose proof (tZ_bound x). pose proof (tZ_bound y). pose proof (tZ_bound c).
  assert (Hm : 0 <= toZ x * toZ y <= (B - 1) * (B - 1)).
  { split; [nia|]. apply Z.mul_le_mono_nonneg; lia. }
  assert (E : toZ (add (add a (mul x y)) c) = toZ a + toZ x * toZ y + toZ c).
  { rewrite add_spec, add_spec, mul_spec. rewrite (Z.mod_small (toZ x * toZ y)).
    rewrite Zplus_mod_idemp_l. apply Z.mod_small. all: rewrite wB_val, B_val in *; lia. }
  split; [exact E|]. rewrite hi30_spec, E. apply Z.div_lt_upper_bound; rewrite B_val in *; lia.
Qed.

Fixpoint addc (acc : list int) (c : int) : list int :=
  match acc with
  | [] => if Uint63.eqb c 0 then [] else [c]
  | a :: acc => let t := add a c in lo30 t :: addc acc (hi30 t)
  end.
Fixpoint addmul (b acc : list int) (x c : int) : list int :=
  match b with
  | [] => addc acc c
  | y :: b =>
      match acc with
      | [] => let t := add (add 0 (mul x y)) c in lo30 t :: addmul b [] x (hi30 t)
      | a :: acc => let t := add (add a (mul x y)) c in lo30 t :: addmul b acc x (hi30 t)
      end
  end.

Lemma lb0 : lb 0. Proof. reflexivity. Qed.

Lemma addc_spec acc : forall c, bounded acc -> lb c ->
  eval (addc acc c) = eval acc + toZ c /\ bounded (addc acc c).
Proof.
  induction acc as [|a acc IH]; intros c Hb Hc; cbn [addc].
  - destruct (Uint63.eqb c 0) eqn:E; cbn [eval].
    + apply eqb_spec in E. subst c. split; [reflexivity|constructor].
    + split; [lia|repeat constructor; exact Hc].
  - inversion Hb as [|? ? Ha Hb']; subst. unfold lb in *.
    pose proof (tZ_bound a). pose proof (tZ_bound c).
    assert (E : toZ (add a c) = toZ a + toZ c).
    { rewrite add_spec. apply Z.mod_small. rewrite wB_val, B_val in *; lia. }
    assert (Hh : lb (hi30 (add a c))).
    { unfold lb. rewrite hi30_spec, E. apply Z.div_lt_upper_bound; rewrite B_val in *; lia. }
    destruct (IH (hi30 (add a c)) Hb' Hh) as [V Bd]. cbn [eval].
    split; [|constructor; [apply lo30_lb|exact Bd]].
    rewrite V. pose proof (split30 (add a c)). lia.
Qed.

Lemma addmul_spec b : forall acc x c, bounded b -> bounded acc -> lb x -> lb c ->
  eval (addmul b acc x c) = eval acc + toZ x * eval b + toZ c /\ bounded (addmul b acc x c).
Proof.
  induction b as [|y b IH]; intros acc x c Hb Ha Hx Hc; cbn [addmul].
  - destruct (addc_spec acc c Ha Hc) as [V Bd]. cbn [eval]. split; [lia|exact Bd].
  - inversion Hb as [|? ? Hy Hb']; subst.
    destruct acc as [|a acc].
    + destruct (step_spec 0 x y c lb0 Hx Hy Hc) as [E Hh]. cbv zeta.
      set (t := add (add 0 (mul x y)) c) in *.
      destruct (IH [] x (hi30 t) Hb' ltac:(constructor) Hx Hh) as [V Bd]. cbn [eval] in *.
      split; [|constructor; [apply lo30_lb|exact Bd]].
      rewrite V. pose proof (split30 t). change (toZ 0) with 0 in E. rewrite B_val in *. lia.
    + inversion Ha as [|? ? Ha0 Ha']; subst.
      destruct (step_spec a x y c Ha0 Hx Hy Hc) as [E Hh]. cbv zeta.
      set (t := add (add a (mul x y)) c) in *.
      destruct (IH acc x (hi30 t) Hb' Ha' Hx Hh) as [V Bd]. cbn [eval] in *.
      split; [|constructor; [apply lo30_lb|exact Bd]].
      rewrite V. pose proof (split30 t). rewrite B_val in *. lia.
Qed.

Fixpoint mont_loop (n : list int) (ninv : int) (a b acc : list int) : list int :=
  match a with
  | [] => acc
  | d :: a =>
      let acc1 := addmul b acc d 0 in
      let mm := lo30 (mul (hd 0%uint63 acc1) ninv) in
      let acc2 := addmul n acc1 mm 0 in
      mont_loop n ninv a b (tl acc2)
  end.

Lemma eval_hd_tl l : eval l = toZ (hd 0%uint63 l) + B * eval (tl l).
Proof. destruct l; cbn [eval hd tl]; [reflexivity|reflexivity]. Qed.
Lemma bounded_tl l : bounded l -> bounded (tl l).
Proof. destruct 1; [constructor|assumption]. Qed.
Lemma bounded_hd l : bounded l -> lb (hd 0%uint63 l).
Proof. destruct 1; [exact lb0|assumption]. Qed.

Section Ctx.
  Variable N : Z.
  Variable n : list int.
  Variable ninv : int.
  Hypothesis HN : 1 < N.
  Hypothesis Hn : eval n = N.
  Hypothesis Hnb : bounded n.
  Hypothesis Hinv : (toZ (hd 0%uint63 n) * toZ ninv + 1) mod B = 0.

  Lemma mont_loop_spec a : forall b acc, bounded a -> bounded b -> bounded acc ->
    bounded (mont_loop n ninv a b acc) /\
    (eval (mont_loop n ninv a b acc) * B ^ Z.of_nat (length a)) mod N
      = (eval acc + eval a * eval b) mod N.
  Proof.
    induction a as [|d a IH]; intros b acc Ha Hb Hacc; cbn [mont_loop length].
    - split; [exact Hacc|]. cbn [eval]. f_equal. cbn. lia.
    - inversion Ha as [|? ? Hd Ha']; subst x l.
      destruct (addmul_spec b acc d 0 Hb Hacc Hd lb0) as [V1 B1]. cbv zeta.
      set (acc1 := addmul b acc d 0) in *.
      set (mm := lo30 (mul (hd 0%uint63 acc1) ninv)).
      destruct (addmul_spec n acc1 mm 0 Hnb B1 (lo30_lb _) lb0) as [V2 B2].
      set (acc2 := addmul n acc1 mm 0) in *.
      destruct (IH b (tl acc2) Ha' Hb (bounded_tl _ B2)) as [B3 V3].
      split; [exact B3|].
      change (toZ 0) with 0 in V1, V2. rewrite Z.add_0_r in V1, V2.
      (* the low limb of acc2 is zero *)
      assert (Hlow : toZ (hd 0%uint63 acc2) = 0).
      { assert (E : eval acc2 mod B = 0).
        { rewrite V2, Hn. rewrite (eval_hd_tl acc1).
          rewrite <- Hn. rewrite (eval_hd_tl n).
          set (h := toZ (hd 0%uint63 acc1)) in *. set (n0 := toZ (hd 0%uint63 n)) in *.
          assert (Em : toZ mm mod B = (h * toZ ninv) mod B).
          { unfold mm. rewrite lo30_spec, mul_spec. rewrite Zmod_mod.
            change wB with (B * 2 ^ 33). fold h. rewrite Z.rem_mul_r by (try rewrite B_val; lia).
            rewrite Z.mul_comm with (n := B). rewrite Z_mod_plus_full, Zmod_mod. reflexivity. }
          replace (h + B * eval (tl acc1) + toZ mm * (n0 + B * eval (tl n)))
            with ((h + toZ mm * n0) + (eval (tl acc1) + toZ mm * eval (tl n)) * B) by ring.
          rewrite Z_mod_plus_full. rewrite <- Zplus_mod_idemp_r, Zmult_mod, Em, <- Zmult_mod, Zplus_mod_idemp_r.
          replace (h + h * toZ ninv * n0) with (h * (n0 * toZ ninv + 1)) by ring.
          rewrite Zmult_mod, Hinv, Z.mul_0_r. reflexivity. }
        rewrite (eval_hd_tl acc2) in E. rewrite (Z.mul_comm B), Z_mod_plus_full in E.
        rewrite Z.mod_small in E; [exact E|].
        pose proof (bounded_hd _ B2) as Hh. unfold lb in Hh. pose proof (tZ_bound (hd 0%uint63 acc2)). lia. }
      rewrite (eval_hd_tl acc2), Hlow, Z.add_0_l in V2.
      rewrite Nat2Z.inj_succ, Z.pow_succ_r by lia.
      replace (eval (mont_loop n ninv a b (tl acc2)) * (B * B ^ Z.of_nat (length a)))
        with (eval (mont_loop n ninv a b (tl acc2)) * B ^ Z.of_nat (length a) * B) by ring.
      rewrite <- Zmult_mod_idemp_l, V3, Zmult_mod_idemp_l. cbn [eval].
      replace ((eval (tl acc2) + eval a * eval b) * B) with (B * eval (tl acc2) + B * eval a * eval b) by ring.
      rewrite V2, V1, Hn.
      replace (eval acc + toZ d * eval b + toZ mm * N + B * eval a * eval b)
        with (eval acc + (toZ d + B * eval a) * eval b + toZ mm * N) by ring.
      apply Z_mod_plus_full.
  Qed.

  (** Fixed width: nine limbs; anything else is the poison value []. *)
  Definition pad9 (l : list int) : list int :=
    if Nat.leb (length l) 9 then l ++ repeat 0%uint63 (9 - length l) else [].
  Lemma eval_app l l' : eval (l ++ l') = eval l + B ^ Z.of_nat (length l) * eval l'.
  Proof.
    induction l as [|x l IH]; cbn [app eval length]; [change (B ^ Z.of_nat 0) with 1; lia|].
    rewrite IH, Nat2Z.inj_succ, Z.pow_succ_r by lia. ring.
  Qed.
  Lemma eval_zeros k : eval (repeat 0%uint63 k) = 0.
  Proof. induction k; cbn [repeat eval]; [reflexivity|]. rewrite IHk. reflexivity. Qed.
  Lemma pad9_spec l : bounded l -> length (pad9 l) = 9%nat -> eval (pad9 l) = eval l /\ bounded (pad9 l).
  Proof.
    unfold pad9. destruct (Nat.leb (length l) 9) eqn:E; [|discriminate].
    intros Hb _. rewrite eval_app, eval_zeros. split; [lia|].
    apply Forall_app. split; [exact Hb|]. clear. induction (9 - length l)%nat; constructor; [exact lb0|assumption].
  Qed.

  Definition len9 (l : list int) : bool := Nat.eqb (length l) 9.
  Definition fmul (a b : list int) : list int :=
    if len9 a then if len9 b then pad9 (mont_loop n ninv a b []) else [] else [].
  Definition fadd (a b : list int) : list int :=
    if len9 a then if len9 b then pad9 (addmul b a 1 0) else [] else [].

  Definition RR : Z := B ^ 9.
  (** [frep l v]: unless poisoned, [l] is the Montgomery form of [v]. *)
  Definition frep (l : list int) (v : Z) : Prop :=
    length l = 9%nat -> bounded l /\ eval l mod N = (v * RR) mod N.

  Lemma poison v : frep [] v. Proof. intros H; discriminate. Qed.

  Hypothesis HR : Znumtheory.rel_prime N RR.

  Lemma frep_mul a b x y : frep a x -> frep b y -> frep (fmul a b) (x * y).
  Proof.
    intros Ha Hb. unfold fmul, len9.
    destruct (Nat.eqb_spec (length a) 9) as [La|]; [|apply poison].
    destruct (Nat.eqb_spec (length b) 9) as [Lb|]; [|apply poison].
    destruct (Ha La) as [Ba Ea]. destruct (Hb Lb) as [Bb Eb].
    destruct (mont_loop_spec a b [] Ba Bb ltac:(constructor)) as [Bd V].
    rewrite La in V. change (B ^ Z.of_nat 9) with RR in V. cbn [eval] in V. rewrite Z.add_0_l in V.
    intros L. destruct (pad9_spec _ Bd L) as [-> B9]. split; [exact B9|].
    rewrite (Zmult_mod (eval a) (eval b)), Ea, Eb, <- Zmult_mod in V.
    replace (x * RR * (y * RR)) with (x * y * RR * RR) in V by ring.
    apply mul_cancel_mod in V; [exact V|lia|exact HR].
  Qed.
  Lemma frep_add a b x y : frep a x -> frep b y -> frep (fadd a b) (x + y).
  Proof.
    intros Ha Hb. unfold fadd, len9.
    destruct (Nat.eqb_spec (length a) 9) as [La|]; [|apply poison].
    destruct (Nat.eqb_spec (length b) 9) as [Lb|]; [|apply poison].
    destruct (Ha La) as [Ba Ea]. destruct (Hb Lb) as [Bb Eb].
    destruct (addmul_spec b a 1 0 Bb Ba ltac:(reflexivity) lb0) as [V Bd].
    change (toZ 0) with 0 in V. change (toZ 1) with 1 in V.
    intros L. destruct (pad9_spec _ Bd L) as [-> B9]. split; [exact B9|].
    rewrite V. rewrite Z.add_0_r, Z.mul_1_l, Zplus_mod, Ea, Eb, <- Zplus_mod. f_equal. ring.
  Qed.

  (** Conversion of constants. *)
  Fixpoint digits (k : nat) (z : Z) : list int :=
    match k with O => [] | S k => of_Z (z mod B) :: digits k (z / B) end.
  Lemma digits_spec k : forall z, 0 <= z < B ^ Z.of_nat k ->
    bounded (digits k z) /\ eval (digits k z) = z.
  Proof.
    induction k as [|k IH]; intros z Hz; cbn [digits eval].
    - change (B ^ Z.of_nat 0) with 1 in Hz. split; [constructor|lia].
    - rewrite Nat2Z.inj_succ, Z.pow_succ_r in Hz by lia.
      assert (HB : 0 < B) by reflexivity.
      destruct (IH (z / B)) as [Bd V].
      { split; [apply Z.div_pos; lia|apply Z.div_lt_upper_bound; lia]. }
      pose proof (Z.mod_pos_bound z B HB).
      assert (E : toZ (of_Z (z mod B)) = z mod B).
      { rewrite of_Z_spec. apply Z.mod_small. rewrite wB_val, B_val in *. lia. }
      split; [constructor; [unfold lb; lia|exact Bd]|].
      rewrite E, V. pose proof (Z.div_mod z B ltac:(lia)). lia.
  Qed.
  Definition toM (z : Z) : list int := digits 9 ((z * RR) mod N).
  Hypothesis HNR : N <= RR.
  Lemma frep_toM z : frep (toM z) z.
  Proof.
    intros _. unfold toM. pose proof (Z.mod_pos_bound (z * RR) N ltac:(lia)).
    destruct (digits_spec 9 ((z * RR) mod N)) as [Bd V].
    - change (B ^ Z.of_nat 9) with RR. lia.
    - split; [exact Bd|]. rewrite V. apply Zmod_mod.
  Qed.

  (** Reading a result back: multiply by plain 1 and evaluate. *)
  Definition fromM (l : list int) : option Z :=
    if len9 l then
      let r := fmul l (digits 9 1) in
      if len9 r then Some (eval r mod N) else None
    else None.
  Lemma fromM_spec l v z : frep l v -> fromM l = Some z -> z = v mod N.
  Proof.
    intros H. unfold fromM, len9. destruct (Nat.eqb_spec (length l) 9) as [L|]; [|discriminate].
    destruct (H L) as [Bd E].
    destruct (Nat.eqb_spec (length (fmul l (digits 9 1))) 9) as [L2|]; [|discriminate].
    intros E0. assert (E1 : eval (fmul l (digits 9 1)) mod N = z) by congruence. subst z. clear E0.
    assert (F : fmul l (digits 9 1) = pad9 (mont_loop n ninv l (digits 9 1) [])).
    { unfold fmul, len9. rewrite L. reflexivity. }
    rewrite F in *.
    destruct (digits_spec 9 1) as [B1 V1]. { change (B ^ Z.of_nat 9) with RR; unfold RR; cbn; lia. }
    destruct (mont_loop_spec l (digits 9 1) [] Bd B1 ltac:(constructor)) as [Bm V].
    destruct (pad9_spec _ Bm L2) as [-> _].
    rewrite L in V. change (B ^ Z.of_nat 9) with RR in V. rewrite V1 in V. cbn [eval] in V.
    rewrite Z.add_0_l, Z.mul_1_r, E in V. apply mul_cancel_mod in V; [exact V|lia|exact HR].
  Qed.

  (** Exponentiation. *)
  Fixpoint fpow (a : list int) (e : positive) : list int :=
    match e with
    | xH => a
    | xO e => let t := fpow a e in fmul t t
    | xI e => let t := fpow a e in fmul (fmul t t) a
    end.
  Lemma frep_pow a x e : frep a x -> frep (fpow a e) (x ^ Zpos e).
  Proof.
    intros Ha. induction e as [e IH|e IH|]; cbn [fpow].
    - replace (x ^ Zpos e~1) with (x ^ Zpos e * x ^ Zpos e * x).
      + apply frep_mul; [apply frep_mul; exact IH|exact Ha].
      + rewrite Pos2Z.inj_xI, Z.pow_add_r, Z.pow_1_r by lia. f_equal.
        replace (2 * Zpos e) with (Zpos e + Zpos e) by ring. rewrite Z.pow_add_r by lia. reflexivity.
    - replace (x ^ Zpos e~0) with (x ^ Zpos e * x ^ Zpos e).
      + apply frep_mul; exact IH.
      + rewrite Pos2Z.inj_xO. replace (2 * Zpos e) with (Zpos e + Zpos e) by ring.
        rewrite Z.pow_add_r by lia. reflexivity.
    - rewrite Z.pow_1_r. exact Ha.
  Qed.
End Ctx.

(** A context check bundling the side conditions. *)
Definition ctx_ok (N : Z) (n : list int) (ninv : int) : bool :=
  ((1 <? N) && (eval n =? N) && forallb (fun x => toZ x <? B) n
   && ((toZ (hd 0%uint63 n) * toZ ninv + 1) mod B =? 0)
   && (N mod 2 =? 1) && (N <=? RR))%bool.

Lemma ctx_ok_spec N n ninv : ctx_ok N n ninv = true ->
  1 < N /\ eval n = N /\ bounded n /\ (toZ (hd 0%uint63 n) * toZ ninv + 1) mod B = 0
  /\ Znumtheory.rel_prime N RR /\ N <= RR.
Proof.
  unfold ctx_ok. rewrite !Bool.andb_true_iff, Z.ltb_lt, !Z.eqb_eq, Z.leb_le.
  intros (((((H1 & H2) & H3) & H4) & H5) & H6). refine (conj H1 (conj H2 (conj _ (conj H4 (conj _ H6))))).
  - apply Forall_forall. intros x Hx. rewrite forallb_forall in H3. specialize (H3 x Hx).
    apply Z.ltb_lt in H3. exact H3.
  - change RR with (2 ^ 270). apply rel_prime_Zpower_r; [lia|].
    apply Znumtheory.rel_prime_sym. apply Znumtheory.prime_rel_prime; [apply Znumtheory.prime_2|].
    intros D. apply Z.mod_divide in D; lia.
Qed.
