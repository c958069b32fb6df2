(** Completeness of the inner product argument. *)
From Coq Require Import List Bool ZArith Arith Lia Ring Field.
From Verif Require Import Lib.AbGroup Lib.Abel Model.FieldTrait Model.Circuits Model.Curve Model.Threads Model.Util Model.Rescue Model.Params Model.Opening
  Spec.FieldLaws Spec.CurveSpec Spec.CurveLaws Spec.UtilSpec Spec.RescueSpec Spec.ProofSpec Spec.VerifySpec
  Proofs.FieldGen Proofs.ZtoF Proofs.SumP Proofs.ParFftP Proofs.RescueP Proofs.SpongeP Proofs.CurveTop Proofs.MultiexpP Proofs.FoldP Proofs.ChallengeP Proofs.ParamsP
  Proofs.UtilTop Proofs.IdentityP Proofs.SystemP.
Import ListNotations.
Open Scope nat_scope.

Lemma all_some_Forall2 {A B} (f : A -> option B) (R : A -> B -> Prop) l : (forall x, In x l -> exists y, f x = Some y /\ R x y) ->
  exists l', all_some (map f l) = Some l' /\ Forall2 R l l'.
Proof.
  induction l as [|x l IH]; intro H; [exists []; split; [reflexivity|constructor]|]. unfold all_some in *. cbn [map fold_right].
  destruct (H x (or_introl eq_refl)) as (y & -> & Hy). destruct IH as (l' & -> & Hl'); [intros z Hz; apply H; right; exact Hz|].
  exists (y :: l'). split; [reflexivity|]. constructor; assumption.
Qed.

(** *** Transcripts *)
Section Live.
  Context {F : Field} {p v} (FL : FieldLaws F p v).
  (** reachable from a new transcript: it never panics *)
  Definition live (r : Rescue F) : Prop := (exists d, NR r d) /\ reached r.
  Lemma live_new : live rescue_new. Proof. split; [exists duplex_new; apply new_NR|constructor]. Qed.
  Lemma perm s : length s = 13 -> rescue_permutation s (staten (F := F) s 20).
  Proof. exact (permutation_staten FL s). Qed.
  Lemma live_absorb r x : live r -> live (absorb r x).
  Proof. intros [(d & H) HR]. split; [|constructor; exact HR]. eexists. exact (absorb_NR FL (fun s => staten s 20) perm r d x H). Qed.
  Lemma live_squeeze r : live r -> exists x r', squeeze r = Some (x, r') /\ live r'.
  Proof.
    intros [(d & H) HR]. destruct (squeeze_NR FL (fun s => staten s 20) perm r d H) as (r' & E & H'). eexists _, r'. split; [exact E|].
    split; [eexists; exact H'|]. econstructor; eassumption.
  Qed.
End Live.

Inductive All3 {A B D} (R : A -> B -> D -> Prop) : list A -> list B -> list D -> Prop :=
| All3_nil : All3 R [] [] []
| All3_cons a b d la lb ld : R a b d -> All3 R la lb ld -> All3 R (a :: la) (b :: lb) (d :: ld).

Section Ipa.
  Context {C : Curve} {q vb r vs} (CL : CurveLaws C q vb r vs).
  Notation G := (cl_group _ _ _ _ _ CL).
  Notation rep := (rep CL).
  Notation F := (Scalar C).
  Let BL := cl_base _ _ _ _ _ CL.
  Let SL := cl_scalar _ _ _ _ _ CL.
  Let SO := fl_ops _ _ _ SL.
  Add Field Fs : (ffield SO).
  Notation zsum := (zsum CL).

  Lemma live_point t (P : C) : live t -> live (append_point t P).
  Proof. intro H. unfold append_point. destruct (c_get_xy P) as [[x y]|]; apply (live_absorb BL), (live_absorb BL), H. Qed.
  Lemma live_scalar t (x : F) : live t -> live (append_scalar (C := C) t x).
  Proof. apply live_point. Qed.
  Lemma live_message t (m : message (C := C)) : live t -> live (append_message t m).
  Proof. intro H. destruct m as [[[L R] l] rr]. unfold append_message. apply live_scalar, live_scalar, live_point, live_point, H. Qed.
  Lemma live_messages ms : forall t, live t -> live (fold_left (append_message (C := C)) ms t).
  Proof. induction ms as [|m ms IH]; intros t H; [exact H|]. cbn [fold_left]. apply IH, live_message, H. Qed.
  Lemma live_challenge (F2 : Field) (t : Rescue (Base C)) : live t -> exists (x : F2) t', get_challenge F2 t = Done (x, t') /\ live t'.
  Proof.
    intro H. destruct (live_squeeze BL t H) as (x & t' & E & H'). unfold get_challenge. rewrite E. cbn [out_opt out_bind].
    eexists _, t'. split; [reflexivity|exact H'].
  Qed.

  (** *** The search for a challenge *)
  Lemma sqrt_eq (a b : F) : f_sqrt a = Some b -> fmul b b = a.
  Proof. intro H. apply (ol_inj _ _ _ SO). rewrite (ol_mul _ _ _ SO). exact (fl_sqrt_some _ _ _ SL a b H). Qed.
  (** no challenge among the next [fuel] *)
  Definition unlucky (fuel : nat) (t : Rescue (Base C)) (from : nat) : Prop := forall j, j < fuel -> exists pk t',
    get_challenge F (absorb t (number (from + j))) = Done (pk, t') /\ f_sqrt (@get_challenge_scalar F F pk) = None.
  Lemma find_fork_eq fuel : forall (t : Rescue (Base C)) failed, let fv := number (C := C) failed in live t ->
    (find_fork fuel t fv failed = Running /\ unlucky fuel t failed) \/
    exists c pk fv' n t', find_fork fuel t fv failed = Done (c, get_challenge_scalar pk, pk, fv', n) /\ failed <= n < failed + fuel /\
      f_sqrt (@get_challenge_scalar F F pk) = Some c /\ get_challenge F (absorb t fv') = Done (pk, t') /\ live t' /\
      forall fuel', find_fork fuel' t fv failed = if n <? failed + fuel' then Done (c, get_challenge_scalar pk, pk, fv', n) else Running.
  Proof.
    induction fuel as [|fuel IH]; intros t failed fv Ht; [left; split; [reflexivity|intros j Hj; lia]|].
    destruct (live_challenge F (absorb t fv) (live_absorb BL t fv Ht)) as (pk & t' & E & Ht').
    cbn [find_fork]. rewrite E. cbn [out_bind].
    destruct (f_sqrt (@get_challenge_scalar F F pk)) as [c|] eqn:Ec.
    - right. exists c, pk, fv, failed, t'. split; [reflexivity|]. split; [lia|]. split; [exact Ec|]. split; [exact E|]. split; [exact Ht'|].
      intros [|fuel']; cbn [find_fork]; [rewrite (proj2 (Nat.ltb_ge _ _)) by lia; reflexivity|].
      rewrite E. cbn [out_bind]. rewrite Ec, (proj2 (Nat.ltb_lt _ _)) by lia. reflexivity.
    - destruct (IH t (S failed) Ht) as [[H HU]|(c & pk' & fv' & n & t'' & H1 & H2 & H3 & H4 & H5 & H6)].
      { left. split; [exact H|]. intros [|j] Hj; [rewrite Nat.add_0_r; eauto|]. replace (failed + S j) with (S failed + j) by lia. apply HU. lia. }
      right. exists c, pk', fv', n, t''. split; [exact H1|]. split; [lia|]. split; [exact H3|]. split; [exact H4|]. split; [exact H5|].
      intros [|fuel']; cbn [find_fork]; [rewrite (proj2 (Nat.ltb_ge _ _)) by lia; reflexivity|].
      rewrite E. cbn [out_bind]. rewrite Ec. change (fadd fv fone) with (number (C := C) (S failed)). rewrite H6. replace (S failed + fuel') with (failed + S fuel') by lia. reflexivity.
  Qed.
  Definition forked (c ci pk : F) : Prop := f_sqrt (@get_challenge_scalar F F pk) = Some c /\ fmul c ci = fone.
  Lemma fork_eq fuel (t : Rescue (Base C)) : live t ->
    (fork_challenge fuel t = Running /\ no_challenge fuel t) \/
    exists c ci pk n t', fork_challenge fuel t = Done (c, ci, get_challenge_scalar pk, pk, n, t') /\ n < fuel /\ forked c ci pk /\ live t' /\
      forall fuel', fork_challenge fuel' t = if n <? fuel' then Done (c, ci, get_challenge_scalar pk, pk, n, t') else Running.
  Proof.
    intro Ht. unfold fork_challenge.
    destruct (find_fork_eq fuel t 0 Ht) as [[H HU]|(c & pk & fv & n & t' & H1 & H2 & H3 & H4 & H5 & H6)]; cbn [number] in *; [left; rewrite H; split; [reflexivity|exact HU]|].
    right. destruct (challenge_nonzero SL SL pk) as (i & _ & Hi).
    assert (Hc : fmul c (fmul c i) = fone). { rewrite <- Hi, <- (sqrt_eq _ _ H3). ring. }
    pose proof (finvert_eq SL c _ Hc) as E.
    exists c, (fmul c i), pk, n, t'. rewrite H1. cbn [out_bind]. rewrite H4. cbn [out_bind].
    rewrite (feqb_refl SO). cbn [out_assert out_bind]. rewrite E. cbn [out_opt out_bind]. split; [reflexivity|]. split; [lia|].
    split; [split; [exact H3|exact Hc]|]. split; [exact H5|]. intro fuel'. rewrite H6. cbn [Nat.add].
    destruct (n <? fuel'); [|reflexivity]. cbn [out_bind]. rewrite H4. cbn [out_bind].
    rewrite (feqb_refl SO). cbn [out_assert out_bind]. rewrite E. reflexivity.
  Qed.

  (** *** One round, algebraically *)
  Lemma zsum_round (c ci : F) : fmul c ci = fone -> forall alo ahi glo ghi, length alo = length ahi -> length glo = length alo -> length ghi = length alo ->
    zsum (map vs (map (fun '(l, h) => fold_scalar (ci, c) l h) (combine alo ahi))) (map (fun '(l, h) => gfold CL (c, ci) l h) (combine glo ghi))
    = gp (gp (gp (zsum (map vs alo) glo) (zsum (map vs ahi) ghi)) (zmul (vs (fmul c c)) (zsum (map vs alo) ghi)))
         (zmul (vs (fmul ci ci)) (zsum (map vs ahi) glo)).
  Proof.
    intro Hc. induction alo as [|a alo IH]; intros [|a' ahi] [|g glo] [|g' ghi] H1 H2 H3; cbn [length] in *; try discriminate.
    - cbn. abel.
    - cbn [combine map MultiexpP.zsum]. rewrite IH by congruence.
      unfold gfold, fold_scalar. cbn [fst snd].
      assert (E : forall x y z w (h : G), zmul (vs (fadd (fmul x z) (fmul y w))) h = gp (zmul (vs x * vs z) h) (zmul (vs y * vs w) h)).
      { intros x y z w h. rewrite (ol_add _ _ _ SO), !(ol_mul _ _ _ SO), <- Zplus_mod. rewrite (zmul_vs_mod CL). abel. }
      rewrite E.
      assert (E1 : forall h : G, h = zmul (vs c * vs ci) h).
      { intro h. rewrite <- (zmul_vs_mod CL (vs c * vs ci)), <- (ol_mul _ _ _ SO), Hc, (ol_one _ _ _ SO). abel. }
      assert (E2 : forall x y (h : G), zmul (vs (fmul x y)) h = zmul (vs x * vs y) h).
      { intros x y h. rewrite (ol_mul _ _ _ SO). apply (zmul_vs_mod CL). }
      rewrite !E2.
      generalize (zsum (map vs alo) glo) as z1. generalize (zsum (map vs ahi) ghi) as z2. generalize (zsum (map vs alo) ghi) as z3. generalize (zsum (map vs ahi) glo) as z4.
      intros z4 z3 z2 z1.
      replace (gp (gp (gp (gp (zmul (vs a) g) z1) (gp (zmul (vs a') g') z2)) (zmul (vs c * vs c) (gp (zmul (vs a) g') z3))) (zmul (vs ci * vs ci) (gp (zmul (vs a') g) z4)))
        with (gp (gp (gp (gp (zmul (vs a) (zmul (vs c * vs ci) g)) z1) (gp (zmul (vs a') (zmul (vs c * vs ci) g')) z2)) (zmul (vs c * vs c) (gp (zmul (vs a) g') z3))) (zmul (vs ci * vs ci) (gp (zmul (vs a') g) z4)))
        by (rewrite <- !E1; reflexivity).
      abel.
  Qed.
  Lemma dot_round (c ci : F) : fmul c ci = fone -> forall alo ahi blo bhi : list F, length alo = length ahi -> length blo = length alo -> length bhi = length alo ->
    dot (map (fun '(l, h) => fold_scalar (ci, c) l h) (combine alo ahi)) (map (fun '(l, h) => fold_scalar (c, ci) l h) (combine blo bhi))
    = fadd (fadd (fadd (dot alo blo) (dot ahi bhi)) (fmul (dot alo bhi) (fmul c c))) (fmul (dot ahi blo) (fmul ci ci)).
  Proof.
    intro Hc. induction alo as [|a alo IH]; intros [|a' ahi] [|g glo] [|g' ghi] H1 H2 H3; cbn [length] in *; try discriminate.
    - cbn. unfold dot. cbn. ring.
    - cbn [combine map]. rewrite !(dot_cons SO). rewrite IH by congruence. unfold fold_scalar. cbn [fst snd].
      transitivity (fadd (fadd (fadd (fadd (fmul (fmul c ci) (fmul a g)) (dot alo glo)) (fadd (fmul (fmul c ci) (fmul a' g')) (dot ahi ghi)))
         (fmul (fadd (fmul a g') (dot alo ghi)) (fmul c c))) (fmul (fadd (fmul a' g) (dot ahi glo)) (fmul ci ci))); [ring|].
      rewrite Hc. ring.
  Qed.

  (** *** One instance *)
  Definition halves {A} (op : A -> A -> A) (lo hi : list A) : list A := map (fun '(l, h) => op l h) (combine lo hi).
  Lemma fold_half_eq (c0 c1 : F) lo hi : length lo = length hi -> fold_half (C := C) (length lo) c0 c1 (lo ++ hi) = Some (halves (fold_scalar (c1, c0)) lo hi).
  Proof.
    intro H. unfold fold_half.
    rewrite (all_some_map (fun i => fold_scalar (c1, c0) (nth i lo fzero) (nth i hi fzero))).
    - f_equal. unfold halves. revert hi H. induction lo as [|x lo IH]; intros [|y hi] H; cbn [length] in *; try discriminate H; [reflexivity|].
      cbn [seq map combine nth]. f_equal. rewrite <- seq_shift, map_map. apply (IH hi). congruence.
    - intros i Hi. apply in_seq in Hi. rewrite nth_error_app1 by lia. rewrite nth_error_app2 by lia.
      rewrite (nth_error_nth' lo fzero) by lia. rewrite (nth_error_nth' hi fzero) by lia. replace (i + length lo - length lo) with i by lia. reflexivity.
  Qed.
  Definition msg_ok (l : nat) (gs : list G) (ab : list F * list F) (m : message (C := C)) : Prop :=
    let '(L, R, lv, rv) := m in
    rep L (zsum (map vs (firstn l (fst ab))) (skipn l gs)) /\ rep R (zsum (map vs (skipn l (fst ab))) (firstn l gs)) /\
    lv = dot (firstn l (fst ab)) (skipn l (snd ab)) /\ rv = dot (skipn l (fst ab)) (firstn l (snd ab)).
  Lemma message_eq M l gens gs (ab : list F * list F) : machine_ok M -> (Z.of_nat l < 2 ^ 32)%Z -> Forall2 rep gens gs ->
    length gs = 2 * l -> length (fst ab) = 2 * l -> length (snd ab) = 2 * l ->
    exists m, new_message M l gens ab = Some m /\ msg_ok l gs ab m.
  Proof.
    intros HM HZ HG H1 H2 H3. destruct ab as [a b]. cbn [fst snd] in *. unfold new_message, slice_to, slice_from.
    pose proof (Forall2_len _ _ _ HG) as H4.
    rewrite (proj2 (Nat.leb_le l (length a))), (proj2 (Nat.leb_le l (length b))), (proj2 (Nat.leb_le l (length gens))) by lia.
    destruct (multiexp_rep CL M (firstn l a) (skipn l gens) (skipn l gs) HM) as (L & -> & HL).
    { rewrite firstn_length, skipn_length. lia. } { rewrite skipn_length. lia. } { apply Forall2_skipn, HG. }
    destruct (multiexp_rep CL M (skipn l a) (firstn l gens) (firstn l gs) HM) as (R & -> & HR).
    { rewrite firstn_length, skipn_length. lia. } { rewrite firstn_length. lia. } { apply Forall2_firstn, HG. }
    rewrite (proj1 (inner_product_top SL _ _)) by (rewrite firstn_length, skipn_length; lia).
    rewrite (proj1 (inner_product_top SL _ _)) by (rewrite firstn_length, skipn_length; lia).
    eexists. split; [reflexivity|]. split; [exact HL|]. split; [exact HR|]. split; reflexivity.
  Qed.
  (** what the verifier knows of an instance *)
  Definition opens (gs : list G) (ab : list F * list F) (P : C) (val : F) : Prop :=
    rep P (zsum (map vs (fst ab)) gs) /\ val = dot (fst ab) (snd ab).
  Definition ab_fold (c ci : F) (ab : list F * list F) : list F * list F :=
    (halve (fold_scalar (ci, c)) (fst ab), halve (fold_scalar (c, ci)) (snd ab)).
  Lemma opens_round (c ci pk : F) l gs ab P val (m : message (C := C)) : forked c ci pk ->
    length gs = 2 * l -> length (fst ab) = 2 * l -> length (snd ab) = 2 * l -> opens gs ab P val -> msg_ok l gs ab m ->
    opens (halve (gfold CL (c, ci)) gs) (ab_fold c ci ab)
      (let '(L, R, _, _) := m in c_add (c_add P (c_mul L (get_challenge_scalar pk))) (c_mul R (fsquare ci)))
      (let '(_, _, lv, rv) := m in fadd (fadd val (fmul lv (get_challenge_scalar pk))) (fmul rv (fsquare ci))).
  Proof.
    intros [Hs Hc] H1 H2 H3 [HP Hv] Hm. destruct m as [[[L R] lv] rv]. destruct Hm as (HL & HR & Hlv & Hrv). destruct ab as [a b]. cbn [fst snd] in *.
    apply sqrt_eq in Hs.
    destruct (split_half a l H2) as (alo & ahi & -> & Ha1 & Ha2). destruct (split_half b l H3) as (blo & bhi & -> & Hb1 & Hb2).
    destruct (split_half gs l H1) as (glo & ghi & -> & Hg1 & Hg2).
    assert (FS : forall (A : Type) (x y : list A), length x = l -> firstn l (x ++ y) = x /\ skipn l (x ++ y) = y).
    { intros A x y <-. rewrite firstn_app, firstn_all, skipn_app, skipn_all, Nat.sub_diag. cbn [firstn skipn app]. rewrite app_nil_r. split; reflexivity. }
    destruct (FS _ alo ahi Ha1) as [E1 E2]. destruct (FS _ blo bhi Hb1) as [E3 E4]. destruct (FS _ glo ghi Hg1) as [E5 E6].
    rewrite E1, E6 in HL. rewrite E2, E5 in HR. rewrite E1, E4 in Hlv. rewrite E2, E3 in Hrv.
    unfold opens, ab_fold. cbn [fst snd]. rewrite !halve_app by congruence. rewrite <- Hs, (fsquare_mul SO). split.
    - rewrite (zsum_round c ci Hc alo ahi glo ghi) by congruence. rewrite map_app, zsum_app in HP by (rewrite map_length; congruence).
      apply rep_add; [apply rep_add; [exact HP|]|]; apply rep_mul; assumption.
    - rewrite (dot_round c ci Hc alo ahi blo bhi) by congruence. subst val lv rv. rewrite (dot_app SO) by congruence. reflexivity.
  Qed.

  (** *** All instances *)
  Lemma opens_all (c ci pk : F) l gs abs Ps vals ms : forked c ci pk -> length gs = 2 * l ->
    Forall (fun ab => length (fst ab) = 2 * l /\ length (snd ab) = 2 * l) abs ->
    All3 (opens gs) abs Ps vals -> Forall2 (msg_ok l gs) abs ms ->
    All3 (opens (halve (gfold CL (c, ci)) gs)) (map (ab_fold c ci) abs)
      (map (fun '(p, (L, R, _, _)) => c_add (c_add p (c_mul L (get_challenge_scalar pk))) (c_mul R (fsquare ci))) (combine Ps ms))
      (map (fun '(v, (_, _, l, r)) => fadd (fadd v (fmul l (get_challenge_scalar pk))) (fmul r (fsquare ci))) (combine vals ms)).
  Proof.
    intros Hf Hg HL H. revert ms HL. induction H as [|ab P val abs Ps vals H0 H IH]; intros ms HL Hm.
    - inversion Hm; subst. constructor.
    - inversion Hm as [|ab' m abs' ms' Hm0 Hms]; subst. inversion HL as [|ab' abs' [HL1 HL2] HL3]; subst.
      cbn [combine map]. constructor; [|apply IH; assumption].
      pose proof (opens_round c ci pk l gs ab P val m Hf Hg HL1 HL2 H0 Hm0) as R. destruct m as [[[L R'] lv] rv]. exact R.
  Qed.
  Lemma round_messages_eq (ms : list (message (C := C))) :
    round_messages (length ms) (mkRound (map (fun '(L, _, _, _) => L) ms) (map (fun '(_, R, _, _) => R) ms)
      (map (fun '(_, _, l, _) => l) ms) (map (fun '(_, _, _, r) => r) ms)) = Some ms.
  Proof.
    unfold round_messages. cbn [ip_L ip_R ip_l ip_r]. destruct ms as [|m0 ms0] eqn:E0; [reflexivity|]. rewrite <- E0. clear E0.
    rewrite (all_some_map (fun j => nth j ms m0)).
    - f_equal. clear. induction ms as [|m ms IH]; [reflexivity|]. cbn [length seq map nth]. f_equal. rewrite <- seq_shift, map_map. exact IH.
    - intros j Hj. apply in_seq in Hj. rewrite !nth_error_map, (nth_error_nth' ms m0) by lia. cbn [option_map].
      destruct (nth j ms m0) as [[[L R] l] rr]. reflexivity.
  Qed.

  Variables (M : Machine) (HM : machine_ok M) (gens0 : list C) (gs0 : list G) (K : nat) (xs : list F).
  Hypothesis HG0 : Forall2 rep gens0 gs0.
  (** the prover's state with k rounds to go *)
  Record PInv (k : nat) (cs cis : list F) (s : PState C) : Prop := {
    pi_live : live (s_transcript s);
    pi_gens : s_generators s = fold_vector fold_point (combine cs cis) gens0;
    pi_glen : length (fold_vector (gfold CL) (combine cs cis) gs0) = 2 ^ k;
    pi_ab : Forall2 (fun x ab => length (fst ab) = 2 ^ k /\ length (snd ab) = 2 ^ k /\
               snd ab = fold_vector fold_scalar (combine cs cis) (powers x (2 ^ K))) xs (s_ab s);
    pi_cs : Forall2 (fun c ci => fmul c ci = fone) cs cis;
    pi_packed : Forall2 (fun c pk => f_sqrt (@get_challenge_scalar F F pk) = Some c) cs (s_packed s)
  }.
  Definition gs_of (cs cis : list F) := fold_vector (gfold CL) (combine cs cis) gs0.
  Record VInv (cs cis : list F) (s : PState C) (t : VState C) : Prop := {
    vi_t : v_transcript t = s_transcript s;
    vi_c : v_challenges t = cs;
    vi_ci : v_challenges_inv t = cis;
    vi_p : v_packed t = s_packed s;
    vi_o : All3 (opens (gs_of cs cis)) (s_ab s) (v_p t) (v_v t)
  }.
  Lemma fold_snoc {A B} (op : B -> A -> A -> A) cs c v : fold_vector op (cs ++ [c]) v = halve (op c) (fold_vector op cs v).
  Proof. unfold fold_vector. rewrite fold_left_app. reflexivity. Qed.
  Lemma Forall2_map_r {A B D} (R : A -> B -> Prop) (R' : A -> D -> Prop) (f : B -> D) l l' :
    (forall x y, R x y -> R' x (f y)) -> Forall2 R l l' -> Forall2 R' l (map f l').
  Proof. intros H H2. induction H2; constructor; auto. Qed.
  Lemma Forall2_right {A B} (R : A -> B -> Prop) (Q : B -> Prop) l l' : (forall x y, R x y -> Q y) -> Forall2 R l l' -> Forall Q l'.
  Proof. intros H H2. induction H2; constructor; eauto. Qed.

  Definition good_round (m : nat) (round : InnerProductRound C) : Prop :=
    m <= length (ip_L round) /\ m <= length (ip_R round) /\ m <= length (ip_l round) /\ m <= length (ip_r round) /\ Forall valid (ip_L round) /\ Forall valid (ip_R round).
  Lemma round_good l gs abs (ms : list (message (C := C))) : Forall2 (msg_ok l gs) abs ms ->
    good_round (length ms) (mkRound (map (fun '(L, _, _, _) => L) ms) (map (fun '(_, R, _, _) => R) ms) (map (fun '(_, _, l, _) => l) ms) (map (fun '(_, _, _, r) => r) ms)).
  Proof.
    intro H. unfold good_round. cbn [ip_L ip_R ip_l ip_r]. rewrite !map_length. do 4 (split; [apply le_n|]).
    split; (induction H as [|ab [[[L R] lv] rv] abs ms (H1 & H2 & _) _ IH]; [constructor|]); cbn [map]; constructor; try exact IH; eexists; [exact H1|exact H2].
  Qed.
  Lemma round_eq fuel k cs cis s : (Z.of_nat (2 ^ k) < 2 ^ 32)%Z -> PInv (S k) cs cis s ->
    (prove_round M fuel (2 ^ k) s = Running /\ exists t, reached t /\ no_challenge (C := C) fuel t) \/
    exists c ci round s', prove_round M fuel (2 ^ k) s = Done s' /\ s_rounds s' = s_rounds s ++ [round] /\ good_round (length xs) round /\ PInv k (cs ++ [c]) (cis ++ [ci]) s' /\
      forall t, VInv cs cis s t ->
        (256 < fuel /\ verify_round (length xs) t round = Panicked) \/
        exists t', verify_round (length xs) t round = Done t' /\ VInv (cs ++ [c]) (cis ++ [ci]) s' t'.
  Proof.
    intros HZ [Hlive Hgens Hglen Hab Hcs Hpk]. unfold prove_round. rewrite Hgens.
    pose proof (fold_rep CL (combine cs cis) _ _ HG0) as HG. fold (gs_of cs cis) in HG, Hglen.
    assert (HL : length (gs_of cs cis) = 2 * 2 ^ k) by (rewrite Hglen; reflexivity).
    assert (Hlen : Forall (fun ab => length (fst ab) = 2 * 2 ^ k /\ length (snd ab) = 2 * 2 ^ k) (s_ab s)).
    { eapply Forall2_right; [|exact Hab]. cbv beta. intros x y (H1 & H2 & _). split; assumption. }
    assert (Hm : exists ms, all_some (map (new_message M (2 ^ k) (fold_vector fold_point (combine cs cis) gens0)) (s_ab s)) = Some ms /\
                   Forall2 (msg_ok (2 ^ k) (gs_of cs cis)) (s_ab s) ms).
    { apply all_some_Forall2. intros ab Hin. pose proof (proj1 (Forall_forall _ _) Hlen ab Hin) as [H1 H2].
      exact (message_eq M (2 ^ k) _ _ ab HM HZ HG HL H1 H2). }
    destruct Hm as (ms & -> & Hms). cbn [out_opt out_bind].
    set (tr := fold_left append_message ms (s_transcript s)).
    assert (Htr : live tr) by (apply live_messages, Hlive).
    destruct (fork_eq fuel tr Htr) as [[E HU]|(c & ci & pk & n & t' & E & Hn & Hf & Hlive' & Hfuel)]; rewrite E; cbn [out_bind]; [left; split; [reflexivity|exists tr; split; [exact (proj2 Htr)|exact HU]]|].
    right.
    assert (Hfold : all_some (map (fun '(a, b) => match fold_half (C := C) (2 ^ k) c ci a, fold_half (C := C) (2 ^ k) ci c b with
                      | Some a, Some b => Some (a, b) | _, _ => None end) (s_ab s)) = Some (map (ab_fold c ci) (s_ab s))).
    { apply all_some_map. intros [a b] Hin. pose proof (proj1 (Forall_forall _ _) Hlen _ Hin) as [H1 H2]. cbn [fst snd] in *.
      destruct (split_half a _ H1) as (alo & ahi & -> & Ha1 & Ha2). destruct (split_half b _ H2) as (blo & bhi & -> & Hb1 & Hb2).
      pose proof (fold_half_eq c ci alo ahi ltac:(congruence)) as E1. pose proof (fold_half_eq ci c blo bhi ltac:(congruence)) as E2.
      rewrite Ha1 in E1. rewrite Hb1 in E2. rewrite E1, E2. unfold ab_fold, halves. cbn [fst snd]. rewrite !halve_app by congruence. reflexivity. }
    rewrite Hfold. cbn [out_opt out_bind].
    assert (Hgl : length (fold_vector fold_point (combine cs cis) gens0) = 2 * 2 ^ k) by (rewrite (Forall2_len _ _ _ HG); exact HL).
    pose proof (Nat.pow_nonzero 2 k ltac:(lia)) as Hk.
    rewrite (collapse_eq M _ c ci HM) by lia. cbn [out_opt out_bind].
    assert (Hcomb : combine (cs ++ [c]) (cis ++ [ci]) = combine cs cis ++ [(c, ci)]).
    { pose proof (Forall2_len _ _ _ Hcs) as Hc. clear - Hc. revert cis Hc. induction cs as [|x cs IH]; intros [|y cis] H; cbn [length] in H; try discriminate H; [reflexivity|].
      cbn [app combine]. f_equal. apply IH. congruence. }
    assert (Hhl : forall A (op : A -> A -> A) v, length v = 2 * 2 ^ k -> length (halve op v) = 2 ^ k).
    { intros A op v Hv. rewrite halve_length, Hv, Nat.mul_comm. apply Nat.div_mul. lia. }
    eexists c, ci, _, _. split; [reflexivity|]. cbn [s_rounds]. split; [reflexivity|].
    assert (Em : length xs = length ms). { rewrite (Forall2_len _ _ _ Hab). exact (Forall2_len _ _ _ Hms). }
    split; [rewrite Em; exact (round_good _ _ _ _ Hms)|]. split.
    - constructor; cbn [s_transcript s_generators s_ab s_packed].
      + exact Hlive'.
      + rewrite Hcomb, fold_snoc, firstn_app. rewrite (Hhl _ _ _ Hgl), Nat.sub_diag. cbn [firstn]. rewrite app_nil_r.
        apply firstn_all2. rewrite (Hhl _ _ _ Hgl). lia.
      + rewrite Hcomb, fold_snoc. apply Hhl, HL.
      + eapply Forall2_map_r; [|exact Hab]. cbv beta. intros x [a b] (H1 & H2 & H3). unfold ab_fold. cbn [fst snd] in *. rewrite Hcomb, fold_snoc, <- H3.
        split; [apply Hhl, H1|]. split; [apply Hhl, H2|reflexivity].
      + apply Forall2_app; [exact Hcs|]. constructor; [exact (proj2 Hf)|constructor].
      + apply Forall2_app; [exact Hpk|]. constructor; [exact (proj1 Hf)|constructor].
    - intros t [Ht Hc Hci Hp Ho]. unfold verify_round.
      rewrite Em, round_messages_eq. cbn [out_opt out_bind]. rewrite Ht. fold tr. rewrite (Hfuel 256).
      destruct (Nat.ltb_spec n 256) as [Hlt|Hge]; [right|left; split; [lia|reflexivity]].
      cbn [out_bind]. eexists. split; [reflexivity|]. rewrite Hc, Hci, Hp.
      constructor; cbn [v_transcript v_challenges v_challenges_inv v_packed v_p v_v s_transcript s_packed s_ab]; try reflexivity.
      unfold gs_of. rewrite Hcomb, fold_snoc. apply (opens_all c ci pk (2 ^ k)); [exact Hf|exact HL|exact Hlen|exact Ho|exact Hms].
  Qed.
  Lemma rounds_eq fuel k : forall cs cis s, (Z.of_nat (2 ^ k) < 2 ^ 33)%Z -> PInv k cs cis s ->
    (prove_rounds M fuel k s = Running /\ exists t, reached t /\ no_challenge (C := C) fuel t) \/
    exists cs' cis' rounds s', prove_rounds M fuel k s = Done s' /\ s_rounds s' = s_rounds s ++ rounds /\ length rounds = k /\ Forall (good_round (length xs)) rounds /\
      PInv 0 cs' cis' s' /\ length cs' = length cs + k /\
      forall t, VInv cs cis s t ->
        (256 < fuel /\ verify_rounds (length xs) t rounds = Panicked) \/
        exists t', verify_rounds (length xs) t rounds = Done t' /\ VInv cs' cis' s' t'.
  Proof.
    induction k as [|k IH]; intros cs cis s HZ HP.
    - right. exists cs, cis, [], s. cbn [prove_rounds]. split; [reflexivity|]. split; [symmetry; apply app_nil_r|]. split; [reflexivity|]. split; [constructor|].
      split; [exact HP|]. split; [lia|]. intros t Ht. right. exists t. split; [reflexivity|exact Ht].
    - cbn [prove_rounds].
      assert (HZ' : (Z.of_nat (2 ^ k) < 2 ^ 32)%Z). { rewrite Nat2Z.inj_pow in *. change (Z.of_nat 2) with 2%Z in *. rewrite Nat2Z.inj_succ, Z.pow_succ_r in HZ by lia. lia. }
      destruct (round_eq fuel k cs cis s HZ' HP) as [[E HU]|(c & ci & round & s1 & E & Er & HW & HP1 & HV)]; rewrite E; cbn [out_bind]; [left; split; [reflexivity|exact HU]|].
      destruct (IH _ _ s1 ltac:(lia) HP1) as [E2|(cs' & cis' & rounds & s' & E2 & Er2 & Hl & HWs & HP2 & Hlc & HV2)]; [left; exact E2|].
      right. exists cs', cis', (round :: rounds), s'. split; [exact E2|]. split; [rewrite Er2, Er, <- app_assoc; reflexivity|].
      split; [cbn [length]; congruence|]. split; [constructor; assumption|]. split; [exact HP2|]. split; [rewrite Hlc, app_length; cbn [length]; lia|].
      intros t Ht. cbn [verify_rounds]. destruct (HV t Ht) as [[Hf Ep]|(t1 & E1 & Ht1)].
      + left. rewrite Ep. split; [exact Hf|reflexivity].
      + rewrite E1. cbn [out_bind]. apply HV2, Ht1.
  Qed.
End Ipa.

Section IpaTop.
  Context {C : Curve} {q vb r vs} (CL : CurveLaws C q vb r vs).
  Notation G := (cl_group _ _ _ _ _ CL).
  Notation rep := (rep CL).
  Notation F := (Scalar C).
  Let BL := cl_base _ _ _ _ _ CL.
  Let SL := cl_scalar _ _ _ _ _ CL.
  Let SO := fl_ops _ _ _ SL.
  Add Field Fs2 : (ffield SO).
  Notation zsum := (zsum CL).

  Lemma zsum_zero n : forall gs, zsum (map vs (repeat fzero n)) gs = g0.
  Proof.
    induction n as [|n IH]; intros [|g gs]; try reflexivity. cbn [repeat map MultiexpP.zsum]. rewrite IH, (ol_zero _ _ _ SO). abel.
  Qed.
  Definition position (edge : bool) {A} (n : nat) (l : list A) : list A := if edge then skipn (length l - n) l else firstn n l.
  Lemma instance_a_eq k edge (coeffs : list F) (gs : list G) (x : F) : length gs = 2 ^ k -> length coeffs <= 2 ^ k ->
    exists a, instance_a (C := C) k edge coeffs = Some a /\ length a = 2 ^ k /\
      zsum (map vs a) gs = zsum (map vs coeffs) (position edge (length coeffs) gs) /\
      dot a (powers x (2 ^ k)) = fmul (eval_at coeffs x) (fpow x (if edge then 2 ^ k - length coeffs else 0)).
  Proof.
    intros HG HL. unfold instance_a, position. destruct edge.
    - unfold usize_sub. rewrite (proj2 (Nat.leb_le _ _)) by exact HL. cbn [obind]. eexists. split; [reflexivity|].
      split; [rewrite app_length, repeat_length; lia|]. split.
      + rewrite <- (firstn_skipn (2 ^ k - length coeffs) gs) at 1. rewrite map_app, zsum_app by (rewrite map_length, repeat_length, firstn_length; lia).
        rewrite zsum_zero, HG. abel.
      + unfold dot, eval_at. rewrite app_length, repeat_length, (fsum_app SO).
        rewrite (fsum_zero SO) by (intros i Hi; unfold coeff; rewrite app_nth1 by (rewrite repeat_length; lia); rewrite nth_repeat; ring).
        rewrite <- (fsum_mul_r SO). rewrite (fsum_ext _ (fun i => fmul (fmul (coeff coeffs i) (fpow x i)) (fpow x (2 ^ k - length coeffs)))).
        * ring.
        * intros i Hi. unfold coeff. rewrite app_nth2 by (rewrite repeat_length; lia). rewrite repeat_length.
          unfold powers. rewrite (nth_indep (map (fpow x) (seq 0 (2 ^ k))) fzero (fpow x 0)) by (rewrite map_length, seq_length; lia). rewrite map_nth, seq_nth by lia.
          cbn [Nat.add]. replace (2 ^ k - length coeffs + i - (2 ^ k - length coeffs)) with i by lia. rewrite (fpow_add SO). ring.
    - eexists. split; [reflexivity|]. assert (E : resize coeffs (2 ^ k) = coeffs ++ repeat fzero (2 ^ k - length coeffs)).
      { unfold resize. rewrite firstn_all2 by exact HL. reflexivity. }
      rewrite E. split; [rewrite app_length, repeat_length; lia|]. split.
      + rewrite <- (firstn_skipn (length coeffs) gs) at 1. rewrite map_app, zsum_app by (rewrite map_length, firstn_length; lia).
        rewrite zsum_zero. abel.
      + unfold dot, eval_at. rewrite app_length, repeat_length, (fsum_app SO).
        rewrite (fsum_ext _ (fun i => fmul (coeff coeffs i) (fpow x i)) (length coeffs)).
        * match goal with |- fadd _ (fsum ?f ?m) = _ => rewrite (fsum_zero SO f m) by (intros i Hi; unfold coeff; rewrite app_nth2 by lia; rewrite nth_repeat; ring) end.
          cbn [fpow]. ring.
        * intros i Hi. unfold coeff. rewrite app_nth1 by lia.
          unfold powers. rewrite (nth_indep (map (fpow x) (seq 0 (2 ^ k))) fzero (fpow x 0)) by (rewrite map_length, seq_length; lia). rewrite map_nth, seq_nth by lia. reflexivity.
  Qed.
  Lemma instance_b_eq (x : F) n : forall cur, instance_b (C := C) x cur n = map (fun i => fmul cur (fpow x i)) (seq 0 n).
  Proof.
    induction n as [|n IH]; intro cur; [reflexivity|]. cbn [instance_b seq map fpow]. f_equal; [ring|]. rewrite IH, <- seq_shift, map_map.
    apply map_ext. intro i. cbn [fpow]. ring.
  Qed.
  Lemma instance_b_powers (x : F) n : instance_b (C := C) x fone n = powers x n.
  Proof. rewrite instance_b_eq. unfold powers. apply map_ext. intro i. ring. Qed.

  (** a true opening: the commitment is to the coefficients, the value is theirs *)
  Definition true_opening (k : nat) (gs : list G) (ic : PolynomialOpening C * list F) : Prop :=
    let '(i, coeffs) := ic in length coeffs <= 2 ^ k /\
    rep (po_commitment i) (zsum (map vs coeffs) (position (po_right_edge i) (length coeffs) gs)) /\
    po_opening i = fmul (eval_at coeffs (po_point i)) (fpow (po_point i) (if po_right_edge i then 2 ^ k - length coeffs else 0)).

  Lemma final_eq (t : VState C) (g : C) g1 cs cis : v_challenges t = cs -> v_challenges_inv t = cis -> cs <> [] -> length cs = length cis -> rep g g1 ->
    forall (instances : list (PolynomialOpening C)) abs Ps vals avs,
    Forall2 (fun x ab => length (fst ab) = 1 /\ length (snd ab) = 1 /\ snd ab = fold_vector fold_scalar (combine cs cis) (powers x (2 ^ length cs))) (map po_point instances) abs ->
    All3 (opens CL [g1]) abs Ps vals -> all_some (map (fun '(a, _) => match a with [x] => Some x | _ => None end) abs) = Some avs ->
    verify_final t g instances Ps vals avs = Done true /\
    forall j P a, nth_error Ps j = Some P -> nth_error avs j = Some a -> same_point P (c_mul g a).
  Proof.
    intros Hc Hci Hn Hl Hg instances abs Ps vals avs H HA. revert instances avs H.
    induction HA as [|[a b] P val abs Ps vals [H1 H2] HA IH]; intros instances avs H Ha.
    - destruct instances; [|inversion H]. split; [reflexivity|]. intros [|j] P a Hj; discriminate Hj.
    - destruct instances as [|i instances]; [inversion H|]. cbn [map] in H. inversion H as [|x ab lx lab (E1 & E2 & E3) Hrest]; subst x ab lx lab.
      cbn [fst snd] in *. destruct a as [|a1 [|? ?]]; try discriminate E1. destruct b as [|b1 [|? ?]]; try discriminate E2.
      unfold all_some in Ha. cbn [map fold_right] in Ha. fold (@all_some F) in Ha.
      match type of Ha with match ?e with _ => _ end = _ => destruct e as [avs'|] eqn:Ea; [|discriminate Ha] end.
      assert (avs = a1 :: avs') as -> by congruence.
      cbn [verify_final]. rewrite Hc, Hci. destruct (compute_b_eq SO (po_point i) cs cis Hn Hl) as (y & -> & Ey). cbn [out_opt out_bind].
      assert (Eb : b1 = y) by congruence. subst b1.
      cbn [map MultiexpP.zsum] in H1.
      assert (Hp : rep P (zmul (vs a1) g1)). { replace (zmul (vs a1) g1) with (gp (zmul (vs a1) g1) (@g0 G)) by abel. exact H1. }
      rewrite (proj2 (cl_eqb _ _ _ _ _ CL _ _ _ _ Hp (rep_mul CL g a1 g1 Hg)) (or_intror eq_refl)). cbn [negb].
      assert (Ev : val = fmul a1 y). { rewrite H2. unfold dot, coeff. cbn. ring. }
      rewrite Ev, (feqb_refl SO). cbn [negb]. destruct (IH _ _ Hrest Ea) as [I1 I2]. split; [exact I1|].
      intros [|j] P0 a0 N1 N2; cbn [nth_error] in N1, N2; [|exact (I2 j P0 a0 N1 N2)]. assert (P0 = P) as -> by congruence. assert (a0 = a1) as -> by congruence.
      eexists. split; [exact Hp|exact (rep_mul CL g a1 g1 Hg)].
  Qed.

  (** the verifier's view [i'] of the prover's instance [ic] *)
  Definition sees (k : nat) (gs : list G) (ic : PolynomialOpening C * list F) (i' : PolynomialOpening C) : Prop :=
    po_point i' = po_point (fst ic) /\ true_opening k gs (mkOpening (po_commitment i') (po_opening i') (po_point (fst ic)) (po_right_edge (fst ic)), snd ic).

  (** the final equations between points hold, without the exception for infinity *)
  Definition strict (pf : MultiPolynomialOpening C) (t : Rescue (Base C)) (claims : list (PolynomialOpening C)) : Prop :=
    exists s, verify_rounds (length claims) (mkV t (map po_commitment claims) (map po_opening claims) [] [] [] []) (mo_rounds pf) = Done s /\
      forall j P a, nth_error (v_p s) j = Some P -> nth_error (mo_a pf) j = Some a -> same_point P (c_mul (mo_g pf) a).

  Theorem ipa_complete M fuel k gens gs t (instances : list (PolynomialOpening C * list F)) : machine_ok M -> 1 <= k <= 32 ->
    Forall2 rep gens gs -> length gens = 2 ^ k -> live t -> Forall (fun ic => length (snd ic) <= 2 ^ k) instances ->
    (new_proof M fuel t instances gens k = Running /\ exists t, reached t /\ no_challenge (C := C) fuel t) \/
    exists pf packed g t', new_proof M fuel t instances gens k = Done (pf, packed, g, t') /\ live t' /\
      (exists cs cis, length cs = k /\ Forall2 (fun c pk => f_sqrt (@get_challenge_scalar F F pk) = Some c) cs packed /\
         Forall2 (fun c ci => fmul c ci = fone) cs cis /\ fold_vector fold_point (combine cs cis) gens = [g]) /\
      well_formed (length instances) k pf /\
      forall vinst, Forall2 (sees k gs) instances vinst ->
      ((256 < fuel /\ verify_proof pf t vinst k = Panicked) \/
       exists forks, verify_proof pf t vinst k = Done (true, packed, g, forks, t') /\ strict pf t vinst).
  Proof.
    intros HM Hk HG Hlen Ht HI. unfold new_proof.
    pose proof (Forall2_len _ _ _ HG) as HL. rewrite Hlen in HL. symmetry in HL.
    assert (Ha : exists as_, all_some (map (fun '(i, coeffs) => instance_a k (po_right_edge i) coeffs) instances) = Some as_ /\
              Forall2 (fun ic a => length a = 2 ^ k /\ zsum (map vs a) gs = zsum (map vs (snd ic)) (position (po_right_edge (fst ic)) (length (snd ic)) gs) /\
                 dot a (powers (po_point (fst ic)) (2 ^ k)) = fmul (eval_at (snd ic) (po_point (fst ic))) (fpow (po_point (fst ic)) (if po_right_edge (fst ic) then 2 ^ k - length (snd ic) else 0)))
                 instances as_).
    { apply all_some_Forall2. intros [i coeffs] Hin. pose proof (proj1 (Forall_forall _ _) HI _ Hin) as H1. cbn [snd fst] in *.
      destruct (instance_a_eq k (po_right_edge i) coeffs gs (po_point i) HL H1) as (a & -> & E1 & E2 & E3). exists a. split; [reflexivity|].
      split; [exact E1|]. split; [exact E2|exact E3]. }
    destruct Ha as (as_ & -> & Has). cbn [out_opt out_bind].
    set (xs := map (fun ic : PolynomialOpening C * list F => po_point (fst ic)) instances).
    set (b := map (fun '(i, _) => instance_b (po_point i) fone (2 ^ k)) instances).
    assert (HP : PInv CL gens gs k xs k [] [] (mkPS t (combine as_ b) gens [] [])).
    { constructor; cbn [s_transcript s_generators s_ab s_packed]; [exact Ht|reflexivity|exact HL| |constructor|constructor].
      unfold xs, b. clear - Has SO. induction Has as [|[i co] a l l' (H & _) _ IH]; [constructor|]. cbn [map combine]. constructor; [|exact IH].
      cbn [fst snd]. rewrite instance_b_powers. split; [exact H|]. split; [unfold powers; rewrite map_length; apply seq_length|reflexivity]. }
    assert (HZ : (Z.of_nat (2 ^ k) < 2 ^ 33)%Z). { rewrite Nat2Z.inj_pow. change (Z.of_nat 2) with 2%Z. apply Z.pow_lt_mono_r; lia. }
    destruct (rounds_eq CL M HM gens gs k xs HG fuel k [] [] _ HZ HP) as [[E HU]|(cs & cis & rounds & s' & E & Er & Hlr & HWr & HP' & Hlc & HV')]; rewrite E; cbn [out_bind]; [left; split; [reflexivity|exact HU]|].
    cbn [length Nat.add] in Hlc. cbn [s_rounds app] in Er.
    destruct HP' as [Hlive Hgens Hglen Hab Hcs Hpk].
    pose proof (fold_rep CL (combine cs cis) _ _ HG) as HGf. rewrite <- Hgens in HGf. cbn [Nat.pow] in *.
    destruct (fold_vector (gfold CL) (combine cs cis) gs) as [|g1 [|? ?]] eqn:Eg; try discriminate Hglen.
    destruct (s_generators s') as [|g [|? ?]] eqn:Egs; [inversion HGf| |inversion HGf as [|? ? ? ? ? Hx]; inversion Hx].
    assert (Hg1 : rep g g1) by (inversion HGf; assumption).
    assert (Hav : exists avs, all_some (map (fun '(a, _) => match a with [x] => Some x | _ => None end) (s_ab s')) = Some avs /\ Forall2 (fun _ _ => True) (s_ab s') avs).
    { apply all_some_Forall2. intros [a b'] Hin. pose proof (Forall2_right _ (fun ab => length (fst ab) = 1) _ _ (fun x y H => proj1 H) Hab) as Hl1.
      pose proof (proj1 (Forall_forall _ _) Hl1 _ Hin) as H1. cbn [fst] in H1. destruct a as [|a1 [|? ?]]; try discriminate H1. exists a1. split; [reflexivity|exact I]. }
    destruct Hav as (avs & Eav & Lav). rewrite Eav. cbn [out_opt out_bind].
    right. eexists _, _, _, _. split; [reflexivity|]. split; [exact Hlive|]. split.
    { exists cs, cis. split; [exact Hlc|]. split; [exact Hpk|]. split; [exact Hcs|]. symmetry. exact Hgens. }
    assert (Lxs : length xs = length instances) by apply map_length.
    split.
    { split; [lia|]. cbn [mo_rounds mo_a mo_g]. rewrite Er, <- Lxs. split; [exact Hlr|]. split; [rewrite <- (Forall2_len _ _ _ Lav), <- (Forall2_len _ _ _ Hab); apply le_n|].
      split; [eexists; exact Hg1|exact HWr]. }
    intros vinst Hsee.
    assert (HV : VInv CL gs [] [] (mkPS t (combine as_ b) gens [] []) (mkV t (map po_commitment vinst) (map po_opening vinst) [] [] [] [])).
    { constructor; try reflexivity. cbn [s_ab v_p v_v]. unfold gs_of. cbn [combine]. unfold fold_vector. cbn [fold_left]. unfold b.
      clear - Has Hsee SO. revert vinst Hsee. induction Has as [|[i co] a l l' (_ & H1 & H2) _ IH]; intros vinst Hsee;
        inversion Hsee as [|ic i' li lv [E1 (T1 & T2 & T3)] Hs']; subst; [constructor|]. cbn [map combine]. constructor; [|apply IH, Hs'].
      cbn [fst snd po_commitment po_opening po_point po_right_edge] in *. unfold opens. cbn [fst snd]. rewrite instance_b_powers, H1, H2. split; [exact T2|exact T3]. }
    assert (Exs : map po_point vinst = xs).
    { unfold xs. clear - Hsee. induction Hsee as [|ic i' li lv [E1 _] _ IH]; [reflexivity|]. cbn [map]. rewrite E1, IH. reflexivity. }
    unfold verify_proof. cbn [mo_rounds mo_g mo_a]. rewrite Er, Hlr, Nat.eqb_refl. cbn [out_assert out_bind].
    assert (Elen : length vinst = length xs) by (rewrite <- Exs, map_length; reflexivity).
    rewrite Elen. destruct (HV' _ HV) as [[Hf Ep]|(t' & Et & [V1 V2 V3 V4 V5])].
    - left. split; [exact Hf|]. rewrite Ep. reflexivity.
    - right. exists (v_forks t'). rewrite Et. cbn [out_bind]. unfold gs_of in V5. rewrite Eg in V5.
      destruct (final_eq t' g g1 cs cis V2 V3) with (instances := vinst) (abs := s_ab s') (Ps := v_p t') (vals := v_v t') (avs := avs) as [-> HF]; [| |exact Hg1| |exact V5|exact Eav|].
      + intros ->. cbn [length] in Hlc. lia.
      + exact (Forall2_len _ _ _ Hcs).
      + rewrite Hlc, Exs. exact Hab.
      + cbn [out_bind]. rewrite V1, V4. split; [reflexivity|]. exists t'. cbn [mo_rounds mo_a mo_g]. rewrite Elen. split; [exact Et|exact HF].
  Qed.
End IpaTop.
