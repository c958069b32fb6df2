(** [multiexp] is the sum of the multiples, whatever the window and the chunks. *)
From Coq Require Import List Bool ZArith Arith Lia.
From Verif Require Import Lib.AbGroup Lib.Abel Model.FieldTrait Model.FieldLimbs Model.Curve Model.Threads Model.Util
  Spec.FieldLaws Spec.CurveSpec Spec.CurveLaws Spec.UtilSpec Proofs.CurveTop Proofs.ThreadsP.
Import ListNotations.
Open Scope Z_scope.

(** bytes *)
Lemma read_le_val bs : read_le bs = le_val bs.
Proof. induction bs as [|b bs IH]; cbn [read_le le_val]; [reflexivity|rewrite IH; reflexivity]. Qed.
Lemma le_val_bound bs : Forall byte bs -> 0 <= le_val bs < 256 ^ Z.of_nat (length bs).
Proof.
  induction 1 as [|b bs Hb _ IH]; cbn [le_val length]; [cbn; lia|]. unfold byte in Hb.
  rewrite Nat2Z.inj_succ, Z.pow_succ_r by lia. lia.
Qed.
Lemma le_val_skipn k : forall bs, Forall byte bs -> le_val (skipn k bs) = le_val bs / 256 ^ Z.of_nat k.
Proof.
  induction k as [|k IH]; intros bs H; [cbn [skipn]; change (256 ^ Z.of_nat 0) with 1; rewrite Z.div_1_r; reflexivity|].
  destruct H as [|b bs Hb H]; [cbn [skipn le_val]; rewrite Z.div_0_l; [reflexivity|apply Z.pow_nonzero; lia]|].
  cbn [skipn le_val]. rewrite IH by exact H. rewrite Nat2Z.inj_succ, Z.pow_succ_r by lia. unfold byte in Hb.
  assert (H0 : 0 < 256 ^ Z.of_nat k) by (apply Z.pow_pos_nonneg; lia).
  rewrite <- Z.div_div by lia. f_equal. rewrite (Z.mul_comm 256 (le_val bs)), Z.div_add by lia.
  rewrite Z.div_small by lia. reflexivity.
Qed.
Lemma le_val_firstn k : forall bs, Forall byte bs -> le_val (firstn k bs) = le_val bs mod 256 ^ Z.of_nat k.
Proof.
  induction k as [|k IH]; intros bs H; [cbn [firstn le_val]; change (256 ^ Z.of_nat 0) with 1; rewrite Z.mod_1_r; reflexivity|].
  destruct H as [|b bs Hb H]; [cbn [firstn le_val]; rewrite Z.mod_0_l; [reflexivity|apply Z.pow_nonzero; lia]|].
  cbn [firstn le_val]. rewrite IH by exact H. rewrite Nat2Z.inj_succ, Z.pow_succ_r by lia. unfold byte in Hb.
  assert (H0 : 0 < 256 ^ Z.of_nat k) by (apply Z.pow_pos_nonneg; lia).
  pose proof (Z.mod_pos_bound (le_val bs) (256 ^ Z.of_nat k) H0).
  apply (Z.mod_unique_pos _ _ (le_val bs / 256 ^ Z.of_nat k)); [lia|].
  pose proof (Z.div_mod (le_val bs) (256 ^ Z.of_nat k) ltac:(lia)). lia.
Qed.
Lemma le_val_app_zero bs n : le_val (bs ++ repeat 0 n) = le_val bs.
Proof.
  induction bs as [|b bs IH]; cbn [app le_val]; [|rewrite IH; reflexivity].
  induction n as [|n IH]; cbn [repeat le_val]; [reflexivity|rewrite IH; reflexivity].
Qed.
Lemma Forall_repeat {A} (P : A -> Prop) x n : P x -> Forall P (repeat x n).
Proof. intro H. induction n; constructor; assumption. Qed.
Lemma Forall_skipn {A} (P : A -> Prop) n l : Forall P l -> Forall P (skipn n l).
Proof. revert l. induction n as [|n IH]; intros l H; [exact H|]. destruct H; [constructor|]. apply IH. assumption. Qed.

(** one window of a scalar *)
Lemma get_at_eq seg c bytes : (1 <= c <= 57)%nat -> length bytes = 32%nat -> Forall byte bytes ->
  get_at seg c bytes = (le_val bytes / 2 ^ Z.of_nat (seg * c)) mod 2 ^ Z.of_nat c.
Proof.
  intros Hc HL HB. unfold get_at. set (sb := (seg * c)%nat). set (k := (sb / 8)%nat).
  assert (Hk : (8 * k <= sb < 8 * k + 8)%nat).
  { unfold k. pose proof (Nat.div_mod sb 8 ltac:(lia)). pose proof (Nat.mod_upper_bound sb 8 ltac:(lia)). lia. }
  assert (Hsplit : 2 ^ Z.of_nat sb = 256 ^ Z.of_nat k * 2 ^ Z.of_nat (sb - k * 8)).
  { change 256 with (2 ^ 8). rewrite <- Z.pow_mul_r, <- Z.pow_add_r by lia. f_equal. lia. }
  assert (H256 : 0 < 256 ^ Z.of_nat k) by (apply Z.pow_pos_nonneg; lia).
  destruct (Nat.leb_spec 32 k) as [H32|H32].
  - rewrite Hsplit, <- Z.div_div by (try apply Z.pow_pos_nonneg; lia).
    pose proof (le_val_bound bytes HB) as Hb. rewrite HL in Hb.
    assert (256 ^ Z.of_nat 32 <= 256 ^ Z.of_nat k) by (apply Z.pow_le_mono_r; lia).
    rewrite (Z.div_small (le_val bytes)) by lia. rewrite Z.div_0_l by (apply Z.pow_nonzero; lia).
    rewrite Z.mod_0_l by (apply Z.pow_nonzero; lia). reflexivity.
  - rewrite read_le_val, le_val_firstn, le_val_app_zero, le_val_skipn; [|exact HB|].
    2: { apply Forall_app. split; [apply Forall_skipn, HB|apply Forall_repeat; unfold byte; lia]. }
    rewrite Z.shiftr_div_pow2 by lia. rewrite Hsplit, <- Z.div_div by (try apply Z.pow_pos_nonneg; lia).
    set (x := le_val bytes / 256 ^ Z.of_nat k). set (s := (sb - k * 8)%nat).
    assert (Hs : (s < 8)%nat) by (unfold s; lia).
    change (256 ^ Z.of_nat 8) with (2 ^ 64).
    (* (x mod 2^64 / 2^s) mod 2^c = (x / 2^s) mod 2^c *)
    apply Z.bits_inj'. intros i Hi. rewrite !Z.testbit_mod_pow2 by lia.
    destruct (Z.ltb_spec i (Z.of_nat c)) as [Hic|Hic]; [|reflexivity]. cbn [andb].
    rewrite <- !Z.shiftr_div_pow2, !Z.shiftr_spec by lia. rewrite Z.testbit_mod_pow2 by lia.
    destruct (Z.ltb_spec (i + Z.of_nat s) 64); [reflexivity|lia].
Qed.

Section Multiexp.
  Context {C : Curve} {q vb r vs} (CL : CurveLaws C q vb r vs).
  Notation G := (cl_group _ _ _ _ _ CL).
  Notation rep := (rep CL).
  Let SL := cl_scalar _ _ _ _ _ CL.
  Let SO := fl_ops _ _ _ SL.

  (** sum of zmul k_i g_i *)
  Fixpoint zsum (ks : list Z) (gs : list G) : G :=
    match ks, gs with k :: ks, g :: gs => gp (zmul k g) (zsum ks gs) | _, _ => g0 end.
  Lemma zsum_nil gs : zsum [] gs = g0. Proof. reflexivity. Qed.
  Lemma zsum_app ks1 : forall gs1 ks2 gs2, length ks1 = length gs1 -> zsum (ks1 ++ ks2) (gs1 ++ gs2) = gp (zsum ks1 gs1) (zsum ks2 gs2).
  Proof.
    induction ks1 as [|k ks IH]; intros [|g gs] ks2 gs2 H; cbn [length] in H; try discriminate H; cbn [app zsum].
    - symmetry. apply gp_0_l.
    - rewrite IH by congruence. apply gp_assoc.
  Qed.
  Lemma zsum_comb {A} (f h : A -> Z) z (l : list A) : forall gs,
    zsum (map (fun x => z * f x + h x) l) gs = gp (zmul z (zsum (map f l) gs)) (zsum (map h l) gs).
  Proof.
    induction l as [|x l IH]; intros [|g gs]; cbn [map zsum]; try (rewrite zmul_g0; symmetry; apply gp_0_l).
    rewrite IH. abel.
  Qed.

  (** weights k, k+1, ... *)
  Fixpoint wsum (k : Z) (hs : list G) : G :=
    match hs with [] => g0 | h :: hs => gp (zmul k h) (wsum (k + 1) hs) end.
  Lemma wsum_succ hs : forall k, wsum (k + 1) hs = gp (wsum k hs) (gsum hs).
  Proof.
    induction hs as [|h hs IH]; intro k; cbn [wsum gsum]; [symmetry; apply gp_0_l|]. rewrite (IH (k + 1)), (IH k). abel.
  Qed.
  Lemma wsum_at_index g i : forall hs k, (i < length hs)%nat ->
    wsum k (at_index i (fun b => gp b g) hs) = gp (wsum k hs) (zmul (k + Z.of_nat i) g).
  Proof.
    induction i as [|i IH]; intros [|h hs] k H; cbn [length] in H; try lia; cbn [at_index wsum].
    - change (Z.of_nat 0) with 0. abel.
    - rewrite IH by lia. rewrite Nat2Z.inj_succ. abel.
  Qed.
  Lemma wsum_zero n : forall k, wsum k (repeat g0 n) = g0.
  Proof. induction n as [|n IH]; intro k; cbn [repeat wsum]; [reflexivity|]. rewrite IH. abel. Qed.

  Lemma at_index_rep P g i : forall Bs hs, rep P g -> Forall2 rep Bs hs ->
    Forall2 rep (at_index i (fun b => c_add b P) Bs) (at_index i (fun b => gp b g) hs).
  Proof.
    induction i as [|i IH]; intros Bs hs HP H; destruct H as [|B h Bs hs HB H]; cbn [at_index]; constructor; try assumption.
    - apply rep_add; assumption.
    - apply IH; assumption.
  Qed.
  Lemma rep_repeat n : Forall2 rep (repeat (c_zero : C) n) (repeat g0 n).
  Proof. induction n as [|n IH]; cbn [repeat]; constructor; [apply rep0|exact IH]. Qed.

  (** the running sum of the buckets, from the last to the first *)
  Lemma buckets_sum Bs hs : Forall2 rep Bs hs -> forall R acc gr ga, rep R gr -> rep acc ga ->
    let st := fold_left (fun '(running_sum, acc) (exp : C) =>
           let running_sum := c_add running_sum exp in
           (running_sum, c_add acc running_sum)) (rev Bs) (R, acc) in
    rep (fst st) (gp gr (gsum hs)) /\ rep (snd st) (gp ga (gp (zmul (Z.of_nat (length hs)) gr) (wsum 1 hs))).
  Proof.
    induction 1 as [|B h Bs hs HB H IH]; intros R acc gr ga HR Ha; cbn [rev fold_left gsum wsum length].
    - cbn [fst snd]. change (Z.of_nat 0) with 0. rewrite zmul_0, !gp_0_r. split; assumption.
    - rewrite fold_left_app. cbn [fold_left]. specialize (IH R acc gr ga HR Ha). cbv zeta in IH.
      destruct (fold_left _ (rev Bs) (R, acc)) as [R1 a1]. cbn [fst snd] in *. destruct IH as [IH1 IH2].
      pose proof (rep_add CL _ _ _ _ IH1 HB) as H1. pose proof (rep_add CL _ _ _ _ IH2 H1) as H2. split.
      + replace (gp gr (gp h (gsum hs))) with (gp (gp gr (gsum hs)) h) by abel. exact H1.
      + rewrite Nat2Z.inj_succ. change 2 with (1 + 1). rewrite wsum_succ.
        match type of H2 with rep _ ?x => match goal with |- rep _ ?y => replace y with x by abel end end. exact H2.
  Qed.

  Definition wf_bytes (b : list Z) : Prop := length b = 32%nat /\ Forall byte b.
  (** the buckets *)
  Lemma buckets_fill (c seg : nat) coeffs : (1 <= c <= 57)%nat -> Forall wf_bytes coeffs -> forall bases gs,
    Forall2 rep bases gs -> length coeffs = length bases -> forall Bs hs, Forall2 rep Bs hs -> length hs = (2 ^ c - 1)%nat ->
    exists hs', Forall2 rep (fold_left (fun buckets '(coeff, base) =>
        let coeff := get_at seg c coeff in
        if coeff =? 0 then buckets
        else at_index (Z.to_nat coeff - 1) (fun b => c_add b base) buckets) (combine coeffs bases) Bs) hs'
     /\ wsum 1 hs' = gp (wsum 1 hs) (zsum (map (fun b => (le_val b / 2 ^ Z.of_nat (seg * c)) mod 2 ^ Z.of_nat c) coeffs) gs).
  Proof.
    intros Hc HW. induction HW as [|co coeffs Hco HW IH]; intros bases gs HB HL Bs hs Hhs Hlen.
    - exists hs. cbn [combine fold_left map zsum]. rewrite gp_0_r. split; [exact Hhs|reflexivity].
    - destruct HB as [|P g bases gs HP HB]; [discriminate HL|]. cbn [combine fold_left map zsum length] in *.
      destruct Hco as [Hco1 Hco2]. rewrite (get_at_eq seg c co Hc Hco1 Hco2).
      set (d := (le_val co / 2 ^ Z.of_nat (seg * c)) mod 2 ^ Z.of_nat c).
      assert (Hd : 0 <= d < 2 ^ Z.of_nat c) by (apply Z.mod_pos_bound, Z.pow_pos_nonneg; lia).
      destruct (Z.eqb_spec d 0) as [Hz|Hz].
      + destruct (IH bases gs HB ltac:(lia) Bs hs Hhs Hlen) as (hs' & H1 & H2). exists hs'. split; [exact H1|].
        rewrite H2, Hz. abel.
      + assert (Hi : (Z.to_nat d - 1 < length hs)%nat).
        { rewrite Hlen. assert (Hp : 2 ^ Z.of_nat c = Z.of_nat (2 ^ c)) by (rewrite Nat2Z.inj_pow; reflexivity). lia. }
        destruct (IH bases gs HB ltac:(lia) _ _ (at_index_rep P g (Z.to_nat d - 1) Bs hs HP Hhs)) as (hs' & H1 & H2).
        { rewrite at_index_length. exact Hlen. }
        exists hs'. split; [exact H1|]. rewrite H2, wsum_at_index by exact Hi.
        replace (1 + Z.of_nat (Z.to_nat d - 1)) with d by lia. abel.
  Qed.

  Lemma iter_double n P g : rep P g -> rep (Nat.iter n c_double P) (zmul (2 ^ Z.of_nat n) g).
  Proof.
    intro H. induction n as [|n IH]; [exact H|]. rewrite Nat2Z.inj_succ, Z.pow_succ_r, zmul_double by lia.
    cbn [Nat.iter nat_rect]. apply rep_double, IH.
  Qed.
  (** one segment *)
  Lemma segment_rep c seg coeffs bases gs acc : (1 <= c <= 57)%nat -> Forall wf_bytes coeffs -> Forall2 rep bases gs ->
    length coeffs = length bases ->
    rep acc (zsum (map (fun b => le_val b / 2 ^ Z.of_nat (S seg * c)) coeffs) gs) ->
    rep (multiexp_segment c coeffs bases seg acc) (zsum (map (fun b => le_val b / 2 ^ Z.of_nat (seg * c)) coeffs) gs).
  Proof.
    intros Hc HW HB HL Ha. unfold multiexp_segment.
    destruct (buckets_fill c seg coeffs Hc HW bases gs HB HL _ _ (rep_repeat (2 ^ c - 1)) (repeat_length _ _)) as (hs' & H1 & H2).
    rewrite wsum_zero, gp_0_l in H2.
    pose proof (proj2 (buckets_sum _ _ H1 c_zero _ g0 _ (rep0 CL) (iter_double c _ _ Ha))) as H.
    rewrite H2, zmul_g0, gp_0_l, <- zsum_comb in H. cbv zeta in H.
    assert (Hext : map (fun x => 2 ^ Z.of_nat c * (le_val x / 2 ^ Z.of_nat (S seg * c))
                        + (le_val x / 2 ^ Z.of_nat (seg * c)) mod 2 ^ Z.of_nat c) coeffs
                 = map (fun b => le_val b / 2 ^ Z.of_nat (seg * c)) coeffs).
    { apply map_ext. intro b. set (x := le_val b / 2 ^ Z.of_nat (seg * c)).
      assert (Hx : le_val b / 2 ^ Z.of_nat (S seg * c) = x / 2 ^ Z.of_nat c).
      { unfold x. rewrite Z.div_div by (try apply Z.pow_nonzero; try apply Z.pow_pos_nonneg; lia).
        rewrite <- Z.pow_add_r by lia. do 2 f_equal. cbn [Nat.mul]. lia. }
      rewrite Hx. symmetry. apply Z.div_mod. apply Z.pow_nonzero; lia. }
    rewrite Hext in H. exact H.
  Qed.
  Lemma segments_rep c coeffs bases gs : (1 <= c <= 57)%nat -> Forall wf_bytes coeffs -> Forall2 rep bases gs ->
    length coeffs = length bases -> forall n acc,
    rep acc (zsum (map (fun b => le_val b / 2 ^ Z.of_nat (n * c)) coeffs) gs) ->
    rep (fold_left (fun s f => f s) (map (multiexp_segment c coeffs bases) (rev (seq 0 n))) acc)
        (zsum (map le_val coeffs) gs).
  Proof.
    intros Hc HW HB HL. induction n as [|n IH]; intros acc Ha.
    - cbn [seq rev map fold_left]. cbn [Nat.mul] in Ha. change (2 ^ Z.of_nat 0) with 1 in Ha.
      rewrite (map_ext _ le_val) in Ha; [exact Ha|]. intro. apply Z.div_1_r.
    - rewrite seq_S, rev_app_distr. cbn [Nat.add rev app map fold_left]. apply IH.
      apply segment_rep; assumption.
  Qed.
  Lemma zsum_zero {A} (f : A -> Z) l gs : (forall x, In x l -> f x = 0) -> zsum (map f l) gs = g0.
  Proof.
    revert gs. induction l as [|x l IH]; intros [|g gs] H; cbn [map zsum]; try reflexivity.
    rewrite (H x) by (left; reflexivity). rewrite zmul_0, gp_0_l. apply IH. intros y Hy. apply H. right. exact Hy.
  Qed.

  Lemma bytes_wf (ss : list (Scalar C)) : Forall wf_bytes (map f_to_bytes ss).
  Proof.
    apply Forall_forall. intros b Hb. apply in_map_iff in Hb. destruct Hb as (s & <- & _).
    destruct (fl_to_bytes _ _ _ SL s) as (H1 & H2 & _). split; assumption.
  Qed.
  Lemma bytes_val (ss : list (Scalar C)) : map le_val (map f_to_bytes ss) = map vs ss.
  Proof. rewrite map_map. apply map_ext. intro s. apply (fl_to_bytes _ _ _ SL s). Qed.

  Lemma thread_rep M coeffs bases gs : machine_ok M -> (Z.of_nat (length bases) < 2 ^ 32) -> Forall2 rep bases gs ->
    length coeffs = length bases -> rep (t_result (multiexp_thread M (coeffs, bases))) (zsum (map vs coeffs) gs).
  Proof.
    intros [_ HM] H32 HB HL. unfold t_result, multiexp_thread. cbn [t_todo t_chunk].
    set (c := if (length bases <? 32)%nat then 3%nat else ln_ceil M (length bases)).
    assert (Hc : (1 <= c <= 57)%nat).
    { unfold c. destruct (Nat.ltb_spec (length bases) 32) as [|Hge]; [lia|]. apply HM; [exact Hge|exact H32]. }
    rewrite <- bytes_val.
    apply segments_rep; [exact Hc|apply bytes_wf|exact HB|rewrite map_length; exact HL|].
    rewrite zsum_zero; [apply rep0|]. intros b Hb. apply in_map_iff in Hb. destruct Hb as (s & <- & _).
    destruct (fl_to_bytes _ _ _ SL s) as (H1 & H2 & H3).
    pose proof (le_val_bound _ H2) as Hbd. rewrite H1 in Hbd. apply Z.div_small. split; [lia|].
    eapply Z.lt_le_trans; [apply Hbd|]. change (256 ^ Z.of_nat 32) with (2 ^ 256). apply Z.pow_le_mono_r; [lia|].
    pose proof (Nat.div_mod 256 c ltac:(lia)). pose proof (Nat.mod_upper_bound 256 c ltac:(lia)).
    change 256 with (Z.of_nat 256). apply inj_le. lia.
  Qed.

  Lemma fold_add_rep Ps gs : Forall2 rep Ps gs -> forall acc g, rep acc g -> rep (fold_left c_add Ps acc) (gp g (gsum gs)).
  Proof.
    induction 1 as [|P h Ps gs HP H IH]; intros acc g Ha; cbn [fold_left gsum]; [rewrite gp_0_r; exact Ha|].
    replace (gp g (gp h (gsum gs))) with (gp (gp g h) (gsum gs)) by (symmetry; apply gp_assoc).
    apply IH. apply rep_add; assumption.
  Qed.
  Lemma naive_rep coeffs : forall bases gs acc g, Forall2 rep bases gs -> length coeffs = length bases -> rep acc g ->
    rep (fold_left (fun acc '(coeff, base) => c_add acc (c_mul base coeff)) (combine coeffs bases) acc) (gp g (zsum (map vs coeffs) gs)).
  Proof.
    induction coeffs as [|s ss IH]; intros bases gs acc g HB HL Ha.
    - cbn [combine fold_left map zsum]. rewrite gp_0_r. exact Ha.
    - destruct HB as [|P h bases gs HP HB]; [discriminate HL|]. cbn [combine fold_left map zsum length] in *.
      rewrite gp_assoc. apply IH; [exact HB|lia|]. apply rep_add; [exact Ha|]. apply rep_mul, HP.
  Qed.
  Lemma Forall2_firstn {A B} (R : A -> B -> Prop) n : forall l l', Forall2 R l l' -> Forall2 R (firstn n l) (firstn n l').
  Proof. induction n as [|n IH]; intros l l' H; [constructor|]. destruct H; [constructor|]. cbn [firstn]. constructor; [assumption|apply IH; assumption]. Qed.
  Lemma Forall2_skipn {A B} (R : A -> B -> Prop) n : forall l l', Forall2 R l l' -> Forall2 R (skipn n l) (skipn n l').
  Proof. induction n as [|n IH]; intros l l' H; [exact H|]. destruct H; [constructor|]. cbn [skipn]. apply IH; assumption. Qed.
  Lemma Forall2_len {A B} (R : A -> B -> Prop) l l' : Forall2 R l l' -> length l = length l'.
  Proof. induction 1; cbn; congruence. Qed.

  Lemma chunked_rep M n : machine_ok M -> (0 < n)%nat -> forall coeffs bases, length coeffs = length bases ->
    (Z.of_nat (length bases) < 2 ^ 32) -> forall gs, Forall2 rep bases gs ->
    exists hs, Forall2 rep (map t_result (map (multiexp_thread M) (combine (chunks n coeffs) (chunks n bases)))) hs
      /\ gsum hs = zsum (map vs coeffs) gs.
  Proof.
    intros HM Hn. refine (chunks_ind2 n _ Hn _ _).
    - intros _ gs H. exists []. split; [constructor|]. reflexivity.
    - intros cs bs Hcs Hbs HL IH H32 gs HB.
      rewrite (chunks_cons n cs Hn Hcs), (chunks_cons n bs Hn Hbs). cbn [combine map].
      destruct (IH ltac:(rewrite skipn_length; lia) (skipn n gs) (Forall2_skipn _ n _ _ HB)) as (hs & H1 & H2).
      exists (zsum (map vs (firstn n cs)) (firstn n gs) :: hs). split.
      + constructor; [|exact H1]. apply thread_rep; [exact HM|rewrite firstn_length; lia|apply Forall2_firstn, HB|].
        rewrite !firstn_length. lia.
      + cbn [gsum]. rewrite H2. rewrite <- zsum_app.
        * rewrite <- map_app, !firstn_skipn. reflexivity.
        * rewrite map_length, !firstn_length. pose proof (Forall2_len _ _ _ HB). lia.
  Qed.
  Theorem multiexp_rep M coeffs bases gs : machine_ok M -> length coeffs = length bases -> (Z.of_nat (length bases) < 2 ^ 32) ->
    Forall2 rep bases gs -> exists P, multiexp M coeffs bases = Some P /\ rep P (zsum (map vs coeffs) gs).
  Proof.
    intros HM HL H32 HB. unfold multiexp. rewrite (proj2 (Nat.eqb_eq _ _) HL).
    destruct (Nat.ltb_spec (cpus M) (length coeffs)) as [Hlt|Hge].
    - assert (Hn : (0 < length coeffs / cpus M)%nat). { apply Nat.div_str_pos. destruct HM. lia. }
      eexists. split; [reflexivity|]. rewrite scope_eq.
      destruct (chunked_rep M _ HM Hn coeffs bases HL H32 gs HB) as (hs & H1 & H2).
      pose proof (fold_add_rep _ _ H1 _ _ (rep0 CL)) as H. rewrite gp_0_l, H2 in H. exact H.
    - eexists. split; [reflexivity|]. pose proof (naive_rep coeffs bases gs _ _ HB HL (rep0 CL)) as H.
      rewrite gp_0_l in H. exact H.
  Qed.
  Lemma multiexp_panics M coeffs (bases : list C) : multiexp M coeffs bases = None <-> length coeffs <> length bases.
  Proof.
    unfold multiexp. destruct (Nat.eqb_spec (length coeffs) (length bases)) as [H|H].
    - destruct (cpus M <? length coeffs)%nat; split; intro H'; [discriminate H'|congruence|discriminate H'|congruence].
    - split; [intros _; exact H|reflexivity].
  Qed.

  (** the specification's sum *)
  Lemma som_zsum ss : forall gs D, length ss = length gs ->
    (sum_of_multiples ss (map (cl_point _ _ _ _ _ CL) gs) D <-> D = cl_point _ _ _ _ _ CL (zsum (map vs ss) gs)).
  Proof.
    induction ss as [|s ss IH]; intros [|g gs] D HL; cbn [length] in HL; try discriminate HL; cbn [map zsum].
    - rewrite (cl_infinity _ _ _ _ _ CL). split; [intro H; inversion H; reflexivity|intros ->; constructor].
    - split.
      + intro H. inversion H as [|? ? ? ? B D' E H1 H2 H3]; subst.
        apply (multiple_top CL) in H1. rewrite (scalar_vs CL) in H1. subst B.
        apply IH in H2; [|congruence]. subst D'. apply (cl_sum _ _ _ _ _ CL) in H3. exact H3.
      + intros ->. econstructor; [apply (multiple_top CL); reflexivity|apply IH; [congruence|reflexivity]|].
        rewrite (scalar_vs CL). apply (cl_sum _ _ _ _ _ CL). reflexivity.
  Qed.
  Lemma reps_ex (Ps : list C) As : Forall2 represents Ps As -> exists gs, As = map (cl_point _ _ _ _ _ CL) gs /\ Forall2 rep Ps gs.
  Proof.
    induction 1 as [|P A Ps As HP H (gs & -> & IH)]; [exists []; split; [reflexivity|constructor]|].
    destruct (rep_ex CL P A HP) as (g & -> & Hg). exists (g :: gs). split; [reflexivity|]. constructor; assumption.
  Qed.
  Theorem multiexp_top M coeffs (bases : list C) As : machine_ok M -> Forall2 represents bases As -> length coeffs = length bases ->
    (Z.of_nat (length bases) < 2 ^ 32) ->
    exists P D, multiexp M coeffs bases = Some P /\ sum_of_multiples coeffs As D /\ represents P D.
  Proof.
    intros HM HB HL H32. destruct (reps_ex bases As HB) as (gs & -> & Hg).
    destruct (multiexp_rep M coeffs bases gs HM HL H32 Hg) as (P & H1 & H2).
    exists P, (cl_point _ _ _ _ _ CL (zsum (map vs coeffs) gs)). split; [exact H1|]. split; [|exact H2].
    apply som_zsum; [|reflexivity]. rewrite HL. exact (Forall2_len _ _ _ Hg).
  Qed.
End Multiexp.
