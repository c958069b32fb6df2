(** Tonelli-Shanks as coded (fp.rs:447-493) finds a root of every square. *)
From Coq Require Import ZArith List Lia Znumtheory Field Bool.
From Verif Require Import Lib.ZMod Model.FieldTrait Spec.FieldLaws Proofs.FieldGen.
Import ListNotations.
Open Scope Z_scope.

Section Sqrt.
  Context {F : FieldOps} {p : Z} {v : F -> Z} (OL : OpsLaws F p v).
  Add Field FFs : (ffield OL).
  Implicit Types a b x z tmp : F.
  Local Notation "a * b" := (fmul a b).
  Local Notation "1" := (@fone F).

  Fixpoint sqn (j : nat) (x : F) : F :=
    match j with O => x | S j => fmul (sqn j x) (sqn j x) end.
  Lemma sqn_S_in j x : sqn (S j) x = sqn j (x * x).
  Proof. induction j as [|j IH]; [reflexivity|]. cbn [sqn] in *. rewrite IH. reflexivity. Qed.
  Lemma sqn_add i j x : sqn (i + j) x = sqn i (sqn j x).
  Proof. induction i as [|i IH]; [reflexivity|]. cbn [sqn Nat.add]. rewrite IH. reflexivity. Qed.
  Lemma sqn_mul j x y : sqn j (x * y) = sqn j x * sqn j y.
  Proof. induction j as [|j IH]; [reflexivity|]. cbn [sqn]. rewrite IH. ring. Qed.
  Lemma sqn_one j : sqn j 1 = 1.
  Proof. induction j as [|j IH]; [reflexivity|]. cbn [sqn]. rewrite IH. ring. Qed.
  Lemma sqn_zpow j x : sqn j x = zpow x (2 ^ Z.of_nat j).
  Proof.
    induction j as [|j IH]; [reflexivity|]. cbn [sqn]. rewrite IH, Nat2Z.inj_succ, Z.pow_succ_r by lia.
    replace (2 * 2 ^ Z.of_nat j)%Z with (2 ^ Z.of_nat j + 2 ^ Z.of_nat j)%Z by ring.
    rewrite (zpow_add OL) by lia. reflexivity.
  Qed.
  Lemma sqn_ge_one k j x : sqn k x = 1 -> (k <= j)%nat -> sqn j x = 1.
  Proof.
    intros H Hj. replace j with ((j - k) + k)%nat by lia. rewrite sqn_add, H. apply sqn_one.
  Qed.

  (** Inner loop once [b^(2^k)] is 1 for a least [1 <= k < v]. *)
  Lemma inner_active vv b z k n :
    (1 <= k < vv)%nat -> sqn k b = 1 -> (forall i, (1 <= i < k)%nat -> sqn i b <> 1) ->
    fold_left (sqrt_inner F vv) (seq 2 n) (b * b, z, 1%nat, true) =
    (if Nat.ltb (S n) k then (sqn (S n) b, z, S n, Nat.ltb (S n) vv)
     else (1, sqn (min (S n) (vv - 1) - k) z, k, Nat.ltb (S n) vv)).
  Proof.
    intros Hk Hb Hmin. induction n as [|n IH].
    - cbn [seq fold_left]. destruct (Nat.ltb_spec 1 k).
      + destruct (Nat.ltb_spec 1 vv); [reflexivity|lia].
      + assert (k = 1)%nat by lia. subst k. cbn [sqn] in Hb. rewrite Hb.
        destruct (Nat.ltb_spec 1 vv); [|lia]. rewrite Nat.min_l by lia. reflexivity.
    - rewrite seq_S, fold_left_app, IH. cbn [fold_left]. change (2 + n)%nat with (S (S n)).
      destruct (Nat.ltb_spec (S n) k) as [Hlt|Hge].
      + unfold sqrt_inner.
        destruct (feqb_spec OL (sqn (S n) b) 1) as [E|_]; [exfalso; apply (Hmin (S n)); [lia|exact E]|].
        cbn [select]. rewrite (fsquare_mul OL).
        change (sqn (S n) b * sqn (S n) b) with (sqn (S (S n)) b).
        assert (J : (Nat.ltb (S n) vv && negb (Nat.eqb (S (S n)) vv))%bool = Nat.ltb (S (S n)) vv).
        { destruct (Nat.ltb_spec (S n) vv), (Nat.eqb_spec (S (S n)) vv), (Nat.ltb_spec (S (S n)) vv); cbn; lia. }
        rewrite J.
        destruct (Nat.ltb_spec (S (S n)) k).
        * unfold select. destruct (Nat.ltb (S (S n)) vv); reflexivity.
        * assert (k = S (S n)) by lia. subst k. rewrite Hb.
          replace (Nat.min (S (S n)) (vv - 1) - S (S n))%nat with 0%nat by lia.
          unfold select. destruct (Nat.ltb (S (S n)) vv); reflexivity.
      + destruct (Nat.ltb_spec (S (S n)) k); [lia|].
        unfold sqrt_inner. rewrite (feqb_refl OL). cbn [select]. rewrite (fsquare_mul OL).
        assert (J : (Nat.ltb (S n) vv && negb (Nat.eqb (S (S n)) vv))%bool = Nat.ltb (S (S n)) vv).
        { destruct (Nat.ltb_spec (S n) vv), (Nat.eqb_spec (S (S n)) vv), (Nat.ltb_spec (S (S n)) vv); cbn; lia. }
        rewrite J. f_equal. f_equal. f_equal.
        destruct (Nat.ltb_spec (S (S n)) vv); cbn [select].
        * rewrite !Nat.min_l by lia. replace (S (S n) - k)%nat with (S (S n - k)) by lia. reflexivity.
        * f_equal. lia.
  Qed.

  (** Inner loop when [b^2 = 1] already. *)
  Lemma inner_done vv b z n : b * b = 1 -> exists i j,
    fold_left (sqrt_inner F vv) (seq 2 n) (b * b, z, 1%nat, true) = (1, sqn i z, 1%nat, j).
  Proof.
    intros ->. induction n as [|n (i & j & IH)].
    - exists 0%nat, true. reflexivity.
    - rewrite seq_S, fold_left_app, IH. cbn [fold_left]. unfold sqrt_inner.
      rewrite (feqb_refl OL). cbn [select]. rewrite (fsquare_mul OL).
      unfold select at 1.
      destruct (j && negb (Nat.eqb (2 + n) vv))%bool; [exists (S i)|exists i]; eexists; reflexivity.
  Qed.

  Definition active (a : F) (mx : nat) (st : F * F * F * nat) : Prop :=
    let '(x, b, z, vv) := st in
    x * x = a * b /\ (1 <= vv <= mx)%nat /\ sqn (vv - 1) b = 1 /\ sqn (vv - 1) z = fneg 1.
  Definition done (a : F) (st : F * F * F * nat) : Prop :=
    let '(x, b, z, vv) := st in x * x = a /\ b * b = 1 /\ z * z = 1.

  Lemma neg1_sq : fneg 1 * fneg 1 = 1. Proof. ring. Qed.

  Lemma least_k b m : sqn m b = 1 -> (1 <= m)%nat ->
    exists k, (1 <= k <= m)%nat /\ sqn k b = 1 /\ (forall i, (1 <= i < k)%nat -> sqn i b <> 1).
  Proof.
    induction m as [m IH] using lt_wf_ind. intros H Hm.
    assert (D : (exists i, (1 <= i < m)%nat /\ sqn i b = 1) \/ (forall i, (1 <= i < m)%nat -> sqn i b <> 1)).
    { clear - OL. induction m as [|m IHm]; [right; lia|].
      destruct IHm as [(i & Hi & E)|N]; [left; exists i; split; [lia|exact E]|].
      destruct (feq_dec OL (sqn m b) 1) as [E|E], m as [|m].
      1,3: right; lia.
      - left. exists (S m). split; [lia|exact E].
      - right. intros i Hi. destruct (Nat.eq_dec i (S m)) as [->|]; [exact E|apply N; lia]. }
    destruct D as [(i & Hi & E)|N].
    - destruct (IH i ltac:(lia) E ltac:(lia)) as (k & Hk & Ek & Nk). exists k. split; [lia|]. split; assumption.
    - exists m. split; [lia|]. split; assumption.
  Qed.

  Lemma outer_step a mx st : (1 <= mx)%nat ->
    active a mx st \/ done a st ->
    (2 <= mx)%nat /\ active a (mx - 1) (sqrt_outer F st mx) \/ done a (sqrt_outer F st mx).
  Proof.
    intros Hmx. destruct st as [[[x b] z] vv]. intros [H|H].
    - destruct H as (Hx & Hv & Hb & Hz). unfold sqrt_outer. rewrite (fsquare_mul OL).
      destruct (feqb_spec OL b 1) as [->|Nb].
      + (* b = 1 *) right.
        assert (B1 : @fmul F 1 1 = 1) by ring.
        destruct (Nat.eq_dec vv 1) as [->|Nv].
        * destruct (inner_done 1 1 z (mx - 2) B1) as (i & j & E). rewrite E. cbn [select done].
          rewrite (fsquare_mul OL). cbn [sqn Nat.sub] in Hz. subst z.
          assert (Q : sqn i (fneg 1) * sqn i (fneg 1) = 1).
          { change (sqn (S i) (fneg 1) = 1). rewrite sqn_S_in, neg1_sq. apply sqn_one. }
          rewrite Q. repeat split; [rewrite Hx|..]; ring.
        * rewrite (inner_active vv 1 z 1 (mx - 2)); [|lia|apply sqn_one|lia].
          destruct (Nat.ltb_spec (S (mx - 2)) 1); [lia|]. cbn [select done]. rewrite (fsquare_mul OL).
          replace (Nat.min (S (mx - 2)) (vv - 1) - 1)%nat with (vv - 2)%nat by lia.
          assert (Q : sqn (vv - 2) z * sqn (vv - 2) z = fneg 1).
          { change (sqn (S (vv - 2)) z = fneg 1). replace (S (vv - 2)) with (vv - 1)%nat by lia. exact Hz. }
          rewrite Q. repeat split; [rewrite Hx|..]; ring.
      + left.
        assert (2 <= vv)%nat.
        { destruct (Nat.eq_dec vv 1) as [->|]; [|lia]. cbn [Nat.sub sqn] in Hb. contradiction. }
        destruct (least_k b (vv - 1) Hb ltac:(lia)) as (k & Hk & Ek & Nk).
        rewrite (inner_active vv b z k (mx - 2)); [|lia|exact Ek|exact Nk].
        destruct (Nat.ltb_spec (S (mx - 2)) k); [lia|]. split; [lia|].
        unfold select, active. rewrite (fsquare_mul OL).
        replace (Nat.min (S (mx - 2)) (vv - 1) - k)%nat with (vv - 1 - k)%nat by lia.
        set (z' := sqn (vv - 1 - k) z).
        assert (Zk : sqn k z' = fneg 1).
        { unfold z'. rewrite <- sqn_add. replace (k + (vv - 1 - k))%nat with (vv - 1)%nat by lia. exact Hz. }
        assert (Zk' : sqn (k - 1) (z' * z') = fneg 1).
        { rewrite <- sqn_S_in. replace (S (k - 1)) with k by lia. exact Zk. }
        assert (Bk : sqn (k - 1) b = fneg 1).
        { assert (S1 : sqn (k - 1) b * sqn (k - 1) b = 1).
          { change (sqn (S (k - 1)) b = 1). replace (S (k - 1)) with k by lia. exact Ek. }
          destruct (square_one OL _ S1) as [E|E]; [|exact E]. exfalso.
          destruct (Nat.eq_dec k 1) as [->|]; [exact (Nb E)|]. apply (Nk (k - 1)%nat); [lia|exact E]. }
        split; [|split; [lia|split]].
        * transitivity (x * x * (z' * z')); [ring|]. rewrite Hx. ring.
        * rewrite sqn_mul, Bk, Zk'. apply neg1_sq.
        * exact Zk'.
    - destruct H as (Hx & Hb & Hz). right. unfold sqrt_outer. rewrite (fsquare_mul OL).
      destruct (inner_done vv b z (mx - 2) Hb) as (i & j & E). rewrite E. cbn [done].
      rewrite (fsquare_mul OL).
      assert (Q : sqn i z * sqn i z = 1).
      { change (sqn (S i) z = 1). rewrite sqn_S_in, Hz. apply sqn_one. }
      rewrite Q. unfold select. repeat split.
      + destruct (feqb b 1); [exact Hx|]. transitivity (x * x * (sqn i z * sqn i z)); [ring|]. rewrite Q, Hx. ring.
      + transitivity (b * b); [ring|exact Hb].
      + ring.
  Qed.

  Lemma outer_all a s st : (1 <= s)%nat -> active a s st \/ done a st ->
    done a (fold_left (sqrt_outer F) (rev (seq 1 s)) st).
  Proof.
    revert st. induction s as [|s IH]; intros st Hs H; [lia|].
    rewrite seq_S, rev_app_distr. cbn [rev app fold_left Nat.add].
    destruct (outer_step a (S s) st ltac:(lia) H) as [[H2 A]|D].
    - apply IH; [lia|]. left. replace (S s - 1)%nat with s in A by lia. exact A.
    - destruct s as [|s]; [exact D|]. apply IH; [lia|]. right. exact D.
  Qed.

  Lemma outer_zero l b z vv : exists b' z' vv',
    fold_left (sqrt_outer F) l (fzero, b, z, vv) = (fzero, b', z', vv').
  Proof.
    revert b z vv. induction l as [|mx l IH]; intros b z vv; cbn [fold_left]; [eauto|].
    unfold sqrt_outer at 2.
    destruct (fold_left (sqrt_inner F vv) (seq 2 (mx - 2)) (fsquare b, z, 1%nat, true)) as [[[t z1] k] j].
    assert (E : select (fzero * z1) fzero (feqb b 1) = @fzero F).
    { unfold select. destruct (feqb b 1); [reflexivity|ring]. }
    rewrite E. apply IH.
  Qed.

  Context (s : nat) (root : F) (w_exp : limbs).
  Context (Hs : (1 <= s)%nat).
  Context (Hroot : sqn (s - 1) root = fneg 1).
  Context (Hwf : limbs_wf w_exp) (Hpos : 0 < limbs_val w_exp).
  (* p - 1 = t 2^s with t = 2 w_exp + 1 *)
  Context (Hexp : p - 1 = ((2 * limbs_val w_exp + 1) * 2 ^ Z.of_nat s)%Z).

  Theorem sqrt_sound a x : sqrt_tonelli F s root w_exp a = Some x -> x * x = a.
  Proof.
    unfold sqrt_tonelli. destruct (fold_left _ _ _) as [[[x' b'] z'] v'].
    destruct (feqb_spec OL (x' * x') a); congruence.
  Qed.

  Definition sqrt_body (a w : F) : option F :=
    let '(x, _, _, _) := fold_left (sqrt_outer F) (rev (seq 1 s)) (a * w, a * w * w, root, s) in
    if feqb (x * x) a then Some x else None.
  Lemma sqrt_body_eq a : sqrt_tonelli F s root w_exp a = sqrt_body a (pow_vartime F a w_exp).
  Proof. reflexivity. Qed.

  Lemma sqrt_body_ok a w x b z vv :
    fold_left (sqrt_outer F) (rev (seq 1 s)) (a * w, a * w * w, root, s) = (x, b, z, vv) ->
    x * x = a -> sqrt_body a w = Some x.
  Proof.
    intros E Ex. unfold sqrt_body. rewrite E. apply (feqb_eq OL) in Ex. rewrite Ex. reflexivity.
  Qed.

  Theorem sqrt_complete y : exists x, sqrt_tonelli F s root w_exp (y * y) = Some x.
  Proof.
    rewrite sqrt_body_eq, (pow_vartime_zpow OL) by exact Hwf.
    remember (y * y) as a eqn:Ha.
    remember (zpow a (limbs_val w_exp)) as w eqn:Hw.
    assert (Hdone : exists x b z vv, fold_left (sqrt_outer F) (rev (seq 1 s)) (a * w, a * w * w, root, s)
                    = (x, b, z, vv) /\ x * x = a).
    { destruct (feq_dec OL a fzero) as [Z0|NZ].
      - assert (Ez : fmul a w = fzero) by (rewrite Z0; ring). rewrite Ez.
        destruct (outer_zero (rev (seq 1 s)) (fzero * w) root s) as (b' & z' & v' & E).
        exists fzero, b', z', v'. split; [exact E|]. rewrite Z0. ring.
      - assert (A : active a s (a * w, a * w * w, root, s)).
        { unfold active. split; [ring|]. split; [lia|]. split; [|exact Hroot].
          assert (Ew : a * w * w = zpow a (2 * limbs_val w_exp + 1)).
          { rewrite Hw.
            rewrite (zpow_add OL), zpow_1 by lia.
            replace (2 * limbs_val w_exp)%Z with (limbs_val w_exp + limbs_val w_exp)%Z by ring.
            rewrite (zpow_add OL) by lia. ring. }
          rewrite Ew, sqn_zpow, (zpow_mul OL) by lia.
          assert (Ny : y <> fzero) by (intros ->; apply NZ; rewrite Ha; ring).
          assert (Ea : a = zpow y 2) by exact Ha. rewrite Ea, (zpow_mul OL) by lia.
          replace (2 * ((2 * limbs_val w_exp + 1) * 2 ^ Z.of_nat (s - 1)))%Z with (p - 1); [apply (fermat OL), Ny|].
          rewrite Hexp. replace (Z.of_nat s) with (Z.succ (Z.of_nat (s - 1))) by lia.
          rewrite Z.pow_succ_r by lia. ring. }
        pose proof (outer_all a s _ Hs (or_introl A)) as D.
        destruct (fold_left _ _ _) as [[[x b] z] vv]. exists x, b, z, vv. split; [reflexivity|]. apply D. }
    destruct Hdone as (x & b & z & vv & E & Ex). exists x. exact (sqrt_body_ok a w x b z vv E Ex).
  Qed.
End Sqrt.
