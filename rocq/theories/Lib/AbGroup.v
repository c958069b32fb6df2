(** Abelian groups and their integer multiples (nothing here models the code). *)
From Coq Require Import ZArith Lia List.
Open Scope Z_scope.

Record AbGroup := {
  GT :> Type;
  g0 : GT; gp : GT -> GT -> GT; gn : GT -> GT;
  gp_assoc : forall a b c, gp a (gp b c) = gp (gp a b) c;
  gp_comm : forall a b, gp a b = gp b a;
  gp_0_l : forall a, gp g0 a = a;
  gp_n_r : forall a, gp a (gn a) = g0
}.
Arguments g0 {_}. Arguments gp {_} _ _. Arguments gn {_} _.

Section Z.
  Context {G : AbGroup}.
  Implicit Types a b c : G.
  Lemma gp_0_r a : gp a g0 = a. Proof. rewrite gp_comm. apply gp_0_l. Qed.
  Lemma gp_n_l a : gp (gn a) a = g0. Proof. rewrite gp_comm. apply gp_n_r. Qed.
  Lemma gp_cancel_r a b c : gp a c = gp b c -> a = b.
  Proof.
    intro H. rewrite <- (gp_0_r a), <- (gp_0_r b), <- (gp_n_r _ c), !gp_assoc, H. reflexivity.
  Qed.
  Lemma gp_cancel_l a b c : gp c a = gp c b -> a = b.
  Proof. rewrite !(gp_comm _ c). apply gp_cancel_r. Qed.
  Lemma gn_unique a b : gp a b = g0 -> b = gn a.
  Proof. intro H. apply (gp_cancel_l _ _ a). rewrite H. symmetry. apply gp_n_r. Qed.
  Lemma gn_0 : gn (@g0 G) = g0. Proof. symmetry. apply gn_unique, gp_0_l. Qed.
  Lemma gn_gn a : gn (gn a) = a. Proof. symmetry. apply gn_unique, gp_n_l. Qed.
  Lemma gp_swap a b c d : gp (gp a b) (gp c d) = gp (gp a c) (gp b d).
  Proof. rewrite !gp_assoc. f_equal. rewrite <- !gp_assoc. f_equal. apply gp_comm. Qed.
  Lemma gn_gp a b : gn (gp a b) = gp (gn a) (gn b).
  Proof. symmetry. apply gn_unique. rewrite gp_swap, !gp_n_r. apply gp_0_l. Qed.

  Lemma gp_cross c x d y : gp c x = gp d y -> gp c (gn d) = gp y (gn x).
  Proof.
    intro E. apply (gp_cancel_r _ _ x). rewrite <- (gp_assoc _ y), gp_n_l, gp_0_r.
    rewrite <- gp_assoc, (gp_comm _ (gn d)), gp_assoc, E, (gp_comm _ d), <- gp_assoc, gp_n_r. apply gp_0_r.
  Qed.

  Definition pmul (n : positive) a : G := Pos.iter_op gp n a.
  Definition zmul (z : Z) a : G :=
    match z with 0 => g0 | Zpos n => pmul n a | Zneg n => gn (pmul n a) end.
  Lemma pmul_succ n a : pmul (Pos.succ n) a = gp a (pmul n a).
  Proof. apply Pos.iter_op_succ. apply gp_assoc. Qed.
  Lemma zmul_0 a : zmul 0 a = g0. Proof. reflexivity. Qed.
  Lemma zmul_1 a : zmul 1 a = a. Proof. reflexivity. Qed.
  Lemma zmul_succ z a : zmul (Z.succ z) a = gp a (zmul z a).
  Proof.
    destruct z as [|n|n]; cbn [zmul].
    - symmetry. apply gp_0_r.
    - rewrite <- pmul_succ. rewrite <- Pos2Z.inj_succ. reflexivity.
    - destruct (Pos.succ_pred_or n) as [->|E].
      + cbn. symmetry. apply gp_n_r.
      + rewrite <- E at 2. rewrite pmul_succ, gn_gp, gp_assoc, gp_n_r, gp_0_l.
        replace (Z.succ (Z.neg n)) with (Z.neg (Pos.pred n)) by lia. reflexivity.
  Qed.
  Lemma zmul_pred z a : zmul (Z.pred z) a = gp (gn a) (zmul z a).
  Proof. apply (gp_cancel_l _ _ a). rewrite <- zmul_succ, Z.succ_pred, gp_assoc, gp_n_r, gp_0_l. reflexivity. Qed.
  Lemma zmul_add x y a : zmul (x + y) a = gp (zmul x a) (zmul y a).
  Proof.
    induction x as [|x IH|x IH] using Z.peano_ind.
    - symmetry. apply gp_0_l.
    - rewrite Z.add_succ_l, !zmul_succ, IH. apply gp_assoc.
    - rewrite Z.add_pred_l, !zmul_pred, IH. apply gp_assoc.
  Qed.
  Lemma zmul_opp x a : zmul (- x) a = gn (zmul x a).
  Proof. apply gn_unique. rewrite <- zmul_add, Z.add_opp_diag_r. reflexivity. Qed.
  Lemma zmul_sub x y a : zmul (x - y) a = gp (zmul x a) (gn (zmul y a)).
  Proof. rewrite <- zmul_opp, <- zmul_add. reflexivity. Qed.
  Lemma zmul_g0 x : zmul x (@g0 G) = g0.
  Proof.
    induction x as [|x IH|x IH] using Z.peano_ind; [reflexivity| |].
    - rewrite zmul_succ, IH. apply gp_0_l.
    - rewrite zmul_pred, IH. apply gp_n_l.
  Qed.
  Lemma zmul_gp x a b : zmul x (gp a b) = gp (zmul x a) (zmul x b).
  Proof.
    induction x as [|x IH|x IH] using Z.peano_ind.
    - symmetry. apply gp_0_l.
    - rewrite !zmul_succ, IH. apply gp_swap.
    - rewrite !zmul_pred, IH, gn_gp. apply gp_swap.
  Qed.
  Lemma zmul_gn x a : zmul x (gn a) = gn (zmul x a).
  Proof. apply gn_unique. rewrite <- zmul_gp, gp_n_r. apply zmul_g0. Qed.
  Lemma zmul_mul x y a : zmul (x * y) a = zmul x (zmul y a).
  Proof.
    induction x as [|x IH|x IH] using Z.peano_ind; [reflexivity| |].
    - rewrite Z.mul_succ_l, Z.add_comm, zmul_add, zmul_succ, IH. reflexivity.
    - rewrite Z.mul_pred_l. replace (x * y - y) with (- y + x * y) by ring.
      rewrite zmul_add, zmul_opp, zmul_pred, IH. reflexivity.
  Qed.
  Lemma zmul_2 a : zmul 2 a = gp a a. Proof. reflexivity. Qed.
  Lemma zmul_double x a : zmul (2 * x) a = gp (zmul x a) (zmul x a).
  Proof. replace (2 * x) with (x + x) by ring. apply zmul_add. Qed.
  Lemma zmul_mod r x a : zmul r a = g0 -> zmul (x mod r) a = zmul x a.
  Proof.
    intro H. destruct (Z.eq_dec r 0) as [->|Hr]; [rewrite Zmod_0_r; reflexivity|].
    rewrite (Z.div_mod x r Hr) at 2. rewrite zmul_add, (Z.mul_comm r), zmul_mul, H, zmul_g0, gp_0_l. reflexivity.
  Qed.
  Lemma zmul_mod_eq r x y a : zmul r a = g0 -> x mod r = y mod r -> zmul x a = zmul y a.
  Proof. intros H E. rewrite <- (zmul_mod r x a H), <- (zmul_mod r y a H), E. reflexivity. Qed.

  Fixpoint gsum (l : list G) : G := match l with nil => g0 | cons a l => gp a (gsum l) end.
  Lemma gsum_app l l' : gsum (l ++ l') = gp (gsum l) (gsum l').
  Proof. induction l as [|a l IH]; cbn [app gsum]; [symmetry; apply gp_0_l|]. rewrite IH. apply gp_assoc. Qed.
  Lemma gsum_zmul z l : zmul z (gsum l) = gsum (map (zmul z) l).
  Proof. induction l as [|a l IH]; cbn [gsum map]; [apply zmul_g0|]. rewrite zmul_gp, IH. reflexivity. Qed.
End Z.
Arguments pmul {G} _ _. Arguments zmul {G} _ _.

(** A group with at most M < 3r elements, without elements of order two, that
    contains an element g of odd prime order r, consists of the multiples of g. *)
From Coq Require Import Znumtheory.
Lemma pigeon M (l : list Z) : NoDup l -> Forall (fun z => 0 <= z < M) l -> (length l <= Z.to_nat M)%nat.
Proof.
  intros HN HF. rewrite <- (map_length Z.to_nat l), <- (seq_length (Z.to_nat M) 0).
  apply NoDup_incl_length.
  - induction HN as [|z l Hz HN IH]; [constructor|]. inversion_clear HF as [|? ? Hz0 HF'].
    cbn [map]. constructor; [|exact (IH HF')]. intro H. apply in_map_iff in H. destruct H as (y & E & Hy).
    apply Hz. rewrite Forall_forall in HF'. specialize (HF' y Hy). cbv beta in HF'. replace z with y by lia. exact Hy.
  - intros n Hn. apply in_map_iff in Hn. destruct Hn as (y & <- & Hy). rewrite Forall_forall in HF.
    specialize (HF y Hy). cbv beta in HF. apply in_seq. lia.
Qed.
Lemma NoDup_map_on {A B} (f : A -> B) l : NoDup l -> (forall x y, In x l -> In y l -> f x = f y -> x = y) -> NoDup (map f l).
Proof.
  induction 1 as [|x l Hx HN IH]; intro Hf; cbn [map]; constructor.
  - intro H. apply in_map_iff in H. destruct H as (y & E & Hy). apply Hx.
    rewrite <- (Hf y x); [exact Hy|right; exact Hy|left; reflexivity|exact E].
  - apply IH. intros y z Hy Hz. apply Hf; right; assumption.
Qed.
Lemma NoDup_app_intro {A} (l l' : list A) : NoDup l -> NoDup l' -> (forall x, In x l -> In x l' -> False) -> NoDup (l ++ l').
Proof.
  induction 1 as [|x l Hx HN IH]; intros H' HD; cbn [app]; [exact H'|].
  constructor.
  - intro H. apply in_app_or in H. destruct H as [H|H]; [contradiction|]. apply (HD x); [left; reflexivity|exact H].
  - apply IH; [exact H'|]. intros y Hy. apply HD. right. exact Hy.
Qed.
Section Cyclic.
  Context {G : AbGroup} (code : G -> Z) (M r : Z) (g : G).
  Hypothesis code_inj : forall a b, code a = code b -> a = b.
  Hypothesis code_range : forall a, 0 <= code a < M.
  Hypothesis r_prime : prime r.
  Hypothesis r_odd : r mod 2 = 1.
  Hypothesis small : M < 3 * r.
  Hypothesis g_order : zmul r g = g0.
  Hypothesis g_nonzero : g <> g0.
  Hypothesis no2 : forall a : G, gp a a = g0 -> a = g0.

  Definition range : list Z := map Z.of_nat (seq 0 (Z.to_nat r)).
  Lemma r_pos : 1 < r. Proof. destruct r_prime. assumption. Qed.
  Lemma range_in k : In k range <-> 0 <= k < r.
  Proof.
    pose proof r_pos. unfold range. rewrite in_map_iff. split.
    - intros (n & <- & Hn). apply in_seq in Hn. lia.
    - intro Hk. exists (Z.to_nat k). split; [lia|]. apply in_seq. lia.
  Qed.
  Lemma range_nodup : NoDup range.
  Proof. apply NoDup_map_on; [apply seq_NoDup|]. intros. lia. Qed.
  Lemma range_length : length range = Z.to_nat r.
  Proof. unfold range. rewrite map_length, seq_length. reflexivity. Qed.
  Lemma zmul_g_inj j k : 0 <= j < r -> 0 <= k < r -> zmul j g = zmul k g -> j = k.
  Proof.
    intros Hj Hk E. destruct (Z.eq_dec j k) as [|D]; [assumption|]. exfalso. apply g_nonzero.
    assert (E0 : zmul (j - k) g = g0) by (rewrite zmul_sub, E; apply gp_n_r).
    assert (RP : rel_prime (j - k) r).
    { apply rel_prime_sym, prime_rel_prime; [exact r_prime|]. intros [q Hq]. pose proof r_pos.
      assert (q = 0 \/ 1 <= q \/ q <= -1) by lia. nia. }
    apply rel_prime_bezout in RP. destruct RP as [u w HB].
    rewrite <- (zmul_1 g), <- HB, zmul_add, !zmul_mul, E0, g_order, !zmul_g0. apply gp_0_l.
  Qed.
  Lemma cyclic a : exists k, 0 <= k < r /\ a = zmul k g.
  Proof.
    destruct (in_dec Z.eq_dec (code a) (map (fun k => code (zmul k g)) range)) as [HI|HN].
    { apply in_map_iff in HI. destruct HI as (k & E & Hk). exists k. split; [apply range_in, Hk|].
      symmetry. apply code_inj, E. }
    exfalso. assert (NA : forall k, a <> zmul k g).
    { intros k ->. apply HN. apply in_map_iff. exists (k mod r). split; [rewrite (zmul_mod r k g g_order); reflexivity|].
      apply range_in. apply Z.mod_pos_bound. pose proof r_pos. lia. }
    assert (N2 : forall k, gp a a <> zmul k g).
    { intros k E. apply (NA (k * ((r + 1) / 2))).
      assert (HH : (r + 1) / 2 * 2 = r + 1) by (Z.div_mod_to_equations; lia).
      apply (gp_cancel_r _ _ (gn (zmul (k * ((r + 1) / 2)) g))). rewrite gp_n_r. apply no2.
      rewrite gp_swap, <- gn_gp, E, <- zmul_add, <- zmul_opp, <- zmul_add.
      replace (k + - (k * ((r + 1) / 2) + k * ((r + 1) / 2))) with (- k * r) by nia.
      rewrite zmul_mul, g_order. apply zmul_g0. }
    assert (ND : forall c : G, NoDup (map (fun k => code (gp c (zmul k g))) range)).
    { intro c. apply NoDup_map_on; [exact range_nodup|]. intros x y Hx Hy E. apply range_in in Hx, Hy.
      apply zmul_g_inj; [assumption|assumption|]. apply (gp_cancel_l _ _ c). apply code_inj, E. }
    assert (DJ : forall c d : G, (forall k, gp c (gn d) <> zmul k g) -> forall z,
       In z (map (fun k => code (gp c (zmul k g))) range) -> In z (map (fun k => code (gp d (zmul k g))) range) -> False).
    { intros c d Hcd z H1 H2. apply in_map_iff in H1, H2. destruct H1 as (j & E1 & _), H2 as (k & E2 & _).
      apply (Hcd (k - j)). assert (E : gp c (zmul j g) = gp d (zmul k g)) by (apply code_inj; congruence).
      rewrite zmul_sub. apply gp_cross, E. }
    pose proof (pigeon M (map (fun k => code (gp g0 (zmul k g))) range ++ map (fun k => code (gp a (zmul k g))) range
      ++ map (fun k => code (gp (gn a) (zmul k g))) range)) as PG.
    rewrite !app_length, !map_length, range_length in PG. pose proof r_pos.
    assert (Z.to_nat r + (Z.to_nat r + Z.to_nat r) <= Z.to_nat M)%nat; [|lia]. apply PG.
    - apply NoDup_app_intro; [apply ND| |].
      + apply NoDup_app_intro; [apply ND|apply ND|]. apply DJ. intros k. rewrite gn_gn. apply N2.
      + intros z H1 H2. apply in_app_or in H2. destruct H2 as [H2|H2]; revert H1 H2; apply DJ; intros k E.
        * rewrite gp_0_l in E. apply (NA (- k)). rewrite zmul_opp, <- E, gn_gn. reflexivity.
        * rewrite gp_0_l, gn_gn in E. exact (NA k E).
    - apply Forall_forall. intros z Hz. repeat (apply in_app_or in Hz; destruct Hz as [Hz|Hz]);
        apply in_map_iff in Hz; destruct Hz as (k & <- & _); apply code_range.
  Qed.
  Lemma order_all (a : G) : zmul r a = g0.
  Proof. destruct (cyclic a) as (k & _ & ->). rewrite <- zmul_mul, Z.mul_comm, zmul_mul, g_order. apply zmul_g0. Qed.
End Cyclic.
