(** What [verify_proof] and [Proof::verify] accept. *)
From Coq Require Import ZArith List Bool Arith Lia Ring Field.
From Verif Require Import Lib.AbGroup Lib.Abel Model.FieldTrait Model.Circuits Model.Synthesis Model.Dev Model.Curve Model.Threads Model.Util Model.Rescue Model.Params Model.Opening Model.Proofs
  Spec.FieldLaws Spec.CircuitSpec Spec.CurveSpec Spec.CurveLaws Spec.UtilSpec Spec.SystemSpec Spec.ProofSpec Spec.VerifySpec Spec.RecursiveCircuitSpec
  Proofs.FieldGen Proofs.ZtoF Proofs.SumP Proofs.SystemP Proofs.CurveTop Proofs.MultiexpP Proofs.FoldP Proofs.ChallengeP Proofs.ParamsP
  Proofs.UtilTop Proofs.IdentityP Proofs.DeferredP Proofs.OpeningP Proofs.OpeningTop Proofs.ProverLemmas Proofs.ProverP Proofs.ProverTop Proofs.DeferredTop Proofs.ForgeryP.
Import ListNotations.
Open Scope nat_scope.
Open Scope list_scope.

Lemma lor_top m : (0 <= m < 2 ^ 128)%Z -> Z.lor m (Z.shiftl 1 127) = (2 ^ 127 + m mod 2 ^ 127)%Z.
Proof.
  intro H. assert (HR : (0 <= m mod 2 ^ 127 < 2 ^ 127)%Z) by (apply Z.mod_pos_bound; reflexivity).
  assert (E0 : Z.land (2 ^ 127) (m mod 2 ^ 127) = 0%Z).
  { apply Z.bits_inj'. intros i Hi. rewrite Z.land_spec, Z.bits_0, Z.pow2_bits_eqb by lia. destruct (Z.eqb_spec 127 i) as [<-|]; [|reflexivity].
    rewrite Z.mod_pow2_bits_high by lia. reflexivity. }
  rewrite Z.add_nocarry_lxor by exact E0. rewrite Z.lxor_lor by exact E0.
  apply Z.bits_inj'. intros i Hi. rewrite !Z.lor_spec, Z.shiftl_1_l, Z.pow2_bits_eqb by lia.
  destruct (Z.eqb_spec 127 i) as [<-|Hne]; [rewrite orb_true_r; reflexivity|]. rewrite orb_false_r. cbn [orb].
  destruct (Z.lt_ge_cases i 127) as [Hl|Hg]; [rewrite Z.mod_pow2_bits_low by lia; reflexivity|].
  rewrite Z.mod_pow2_bits_high by lia. destruct (Z.eq_dec m 0) as [->|Hm]; [apply Z.bits_0|]. apply Z.bits_above_log2; [lia|].
  assert (Z.log2 m < 128)%Z by (apply Z.log2_lt_pow2; lia). lia.
Qed.

Lemma nth_map_some {A B} (f : A -> B) l j y : nth_error (map f l) j = Some y -> exists x, nth_error l j = Some x /\ y = f x.
Proof. rewrite nth_error_map. destruct (nth_error l j) as [x|]; [|discriminate]. intro H. exists x. split; [reflexivity|]. cbn in H. congruence. Qed.
Lemma nth_firstn_lt {A} (l : list A) : forall m j, j < m -> nth_error (firstn m l) j = nth_error l j.
Proof. induction l as [|x l IH]; intros [|m] [|j] H; try lia; try reflexivity. cbn [firstn nth_error]. apply IH. lia. Qed.
Lemma nth_combine {A B} (l : list A) : forall (l' : list B) j x y, nth_error l j = Some x -> nth_error l' j = Some y -> nth_error (combine l l') j = Some (x, y).
Proof. induction l as [|a l IH]; intros [|b l'] [|j] x y H H'; try discriminate; cbn [nth_error combine] in *; [congruence|]. apply IH; assumption. Qed.

Section Verify.
  Context {C : Curve} {q vb r vs} (CL : CurveLaws C q vb r vs).
  Notation G := (cl_group _ _ _ _ _ CL).
  Notation rep := (rep CL).
  Notation F := (Scalar C).
  Let BL := cl_base _ _ _ _ _ CL.
  Let SL := cl_scalar _ _ _ _ _ CL.
  Let SO := fl_ops _ _ _ SL.
  Add Field Fs : (ffield SO).
  Notation zsum := (zsum CL).
  Ltac step := cbn [out_bind out_try out_opt out_assert obind].

  (** *** Transcripts *)
  Lemma challenge_spec t (c : F) t' : get_challenge F t = Done (c, t') -> challenge_after t c t'.
  Proof.
    unfold get_challenge. destruct (squeeze t) as [[e t1]|] eqn:E; cbn [out_opt out_bind]; [|discriminate].
    intro H. assert (Ec : c = f_from_u128 (Z.lor (f_get_lower_128 e) (Z.shiftl 1 127))) by congruence. assert (t1 = t') as -> by congruence. clear H.
    exists e. split; [exact E|].
    destruct (fl_to_bytes _ _ _ SL c) as (_ & _ & ->). destruct (fl_to_bytes _ _ _ BL e) as (_ & _ & ->). rewrite Ec, (fl_lower _ _ _ BL).
    assert (Hm : (0 <= vb e mod 2 ^ 128 < 2 ^ 128)%Z) by (apply Z.mod_pos_bound; reflexivity).
    rewrite (lor_top _ Hm). rewrite <- (Znumtheory.Zmod_div_mod (2 ^ 127) (2 ^ 128)) by (try reflexivity; exists 2%Z; reflexivity).
    pose proof (Z.mod_pos_bound (vb e) (2 ^ 127) eq_refl) as HB.
    apply (fl_from_u128 _ _ _ SL). lia.
  Qed.
  Lemma live_after t : live t -> exists c t', get_challenge F t = Done (c, t') /\ challenge_after t c t' /\ live t'.
  Proof. intro H. destruct (live_challenge CL F t H) as (c & t' & E & H'). exists c, t'. split; [exact E|]. split; [exact (challenge_spec _ _ _ E)|exact H']. Qed.
  Lemma appended_app t a b : appended (C := C) t (a ++ b) = appended (appended t a) b.
  Proof. unfold appended. rewrite flat_map_app, fold_left_app. reflexivity. Qed.
  Lemma append_point_eq t (P : C) : append_point t P = appended t [Point P].
  Proof. unfold append_point, appended, elements. cbn [flat_map item_point]. destruct (c_get_xy P) as [[x y]|]; reflexivity. Qed.
  Lemma append_scalar_eq t (x : F) : append_scalar t x = appended t [Scal x].
  Proof. unfold append_scalar. rewrite append_point_eq. reflexivity. Qed.
  Lemma append_cons t (i : item C) l : appended t (i :: l) = appended (appended t [i]) l.
  Proof. apply (appended_app t [i] l). Qed.
  Lemma append_messages_eq ms : forall t, fold_left append_message ms t = appended (C := C) t (spoken ms).
  Proof.
    induction ms as [|[[[L R] l] rr] ms IH]; intro t; [reflexivity|]. cbn [fold_left]. rewrite IH. unfold spoken. cbn [flat_map].
    rewrite appended_app. f_equal. unfold append_message. rewrite !append_scalar_eq, !append_point_eq.
    rewrite <- !appended_app. reflexivity.
  Qed.
  Lemma live_appended t l : live t -> live (appended (C := C) t l).
  Proof.
    revert t. induction l as [|i l IH]; intros t H; [exact H|]. rewrite append_cons. apply IH. destruct i as [P|x].
    - rewrite <- append_point_eq. apply (live_point CL), H.
    - rewrite <- append_scalar_eq. apply (live_scalar CL), H.
  Qed.

  (** *** One round *)
  Lemma sent_messages m (round : InnerProductRound C) : m <= length (ip_L round) -> m <= length (ip_R round) -> m <= length (ip_l round) -> m <= length (ip_r round) ->
    exists ms, round_messages m round = Some ms /\ sent m round ms /\
      forall j, j < m -> exists L R l rr, nth_error ms j = Some (L, R, l, rr) /\ nth_error (ip_L round) j = Some L /\ nth_error (ip_R round) j = Some R /\
        nth_error (ip_l round) j = Some l /\ nth_error (ip_r round) j = Some rr.
  Proof.
    destruct round as [Ls Rs ls rs]. cbn [ip_L ip_R ip_l ip_r]. intros H1 H2 H3 H4.
    assert (HE : forall j, j < m -> exists L R l rr, nth_error Ls j = Some L /\ nth_error Rs j = Some R /\ nth_error ls j = Some l /\ nth_error rs j = Some rr).
    { intros j Hj.
      destruct (nth_error Ls j) as [L|] eqn:E1; [|apply nth_error_None in E1; lia]. destruct (nth_error Rs j) as [R|] eqn:E2; [|apply nth_error_None in E2; lia].
      destruct (nth_error ls j) as [l|] eqn:E3; [|apply nth_error_None in E3; lia]. destruct (nth_error rs j) as [rr|] eqn:E4; [|apply nth_error_None in E4; lia].
      exists L, R, l, rr. auto. }
    unfold round_messages. cbn [ip_L ip_R ip_l ip_r].
    destruct (all_some_Forall2 (fun j => match nth_error Ls j, nth_error Rs j, nth_error ls j, nth_error rs j with
        | Some L, Some R, Some l, Some r => Some (L, R, l, r) | _, _, _, _ => None end)
      (fun j (x : C * C * F * F) => let '(L, R, l, rr) := x in nth_error Ls j = Some L /\ nth_error Rs j = Some R /\ nth_error ls j = Some l /\ nth_error rs j = Some rr)
      (seq 0 m)) as (ms & E & HF).
    { intros j Hj. apply in_seq in Hj. destruct (HE j) as (L & R & l & rr & E1 & E2 & E3 & E4); [lia|]. rewrite E1, E2, E3, E4. eexists. split; [reflexivity|]. cbv beta iota. auto. }
    exists ms. split; [exact E|].
    pose proof (Forall2_len _ _ _ HF) as HL. rewrite seq_length in HL. symmetry in HL.
    assert (HN : forall j, j < m -> exists L R l rr, nth_error ms j = Some (L, R, l, rr) /\ nth_error Ls j = Some L /\ nth_error Rs j = Some R /\
        nth_error ls j = Some l /\ nth_error rs j = Some rr).
    { intros j Hj. destruct (nth_error ms j) as [[[[L R] l] rr]|] eqn:Em; [|apply nth_error_None in Em; lia].
      assert (HX : forall (l1 : list nat) l2 i a b, Forall2 (fun j (x : C * C * F * F) => let '(L, R, l, rr) := x in nth_error Ls j = Some L /\ nth_error Rs j = Some R /\ nth_error ls j = Some l /\ nth_error rs j = Some rr) l1 l2 ->
         nth_error l1 i = Some a -> nth_error l2 i = Some b -> let '(L, R, l, rr) := b in nth_error Ls a = Some L /\ nth_error Rs a = Some R /\ nth_error ls a = Some l /\ nth_error rs a = Some rr).
      { intros l1 l2 i a b H. revert i. induction H as [|? ? ? ? H _ IH]; intros [|i] Ea Eb; try discriminate; cbn [nth_error] in *; [|exact (IH i Ea Eb)].
        injection Ea as <-. injection Eb as <-. exact H. }
      assert (Es : nth_error (seq 0 m) j = Some j). { rewrite (nth_error_nth' _ 0) by (rewrite seq_length; exact Hj). rewrite seq_nth by exact Hj. reflexivity. }
      pose proof (HX _ _ _ _ _ HF Es Em) as H. cbv beta iota in H. exists L, R, l, rr. tauto. }
    split; [|exact HN]. split; [exact HL|]. cbn [ip_L ip_R ip_l ip_r].
    assert (HG : forall {A} (l : list A) (f : C * C * F * F -> A), m <= length l -> (forall j, j < m -> option_map f (nth_error ms j) = nth_error l j) -> firstn m l = map f ms).
    { intros A l f Hm Hj. clear - Hm Hj HL. revert l m HL Hm Hj. induction ms as [|x ms IH]; intros l m HL Hm Hj; cbn [length] in HL; subst m; [reflexivity|].
      destruct l as [|y l]; [cbn [length] in Hm; lia|]. cbn [firstn map]. f_equal; [specialize (Hj 0 ltac:(lia)); cbn in Hj; congruence|].
      apply IH; [reflexivity|cbn [length] in Hm; lia|]. intros j Hj'. exact (Hj (S j) ltac:(lia)). }
    repeat split; (apply HG; [assumption|]); intros j Hj; destruct (HN j Hj) as (L & R & l & rr & -> & E1 & E2 & E3 & E4); cbn [option_map]; congruence.
  Qed.

  Lemma find_fork_spec fuel : forall (t : Rescue (Base C)) f c sq pk fv n, find_fork fuel t (number f) f = Done (c, sq, pk, fv, n) ->
    fv = number n /\ f <= n < f + fuel /\
    (forall j, f <= j < n -> exists p t2, challenge_after (absorb t (number j)) p t2 /\ f_sqrt (get_challenge_scalar p : F) = None).
  Proof.
    induction fuel as [|fuel IH]; intros t f c sq pk fv n H; [discriminate H|]. cbn [find_fork] in H.
    destruct (get_challenge F (absorb t (number f))) as [[pk' t']| |] eqn:E; cbn [out_bind] in H; try discriminate H.
    destruct (f_sqrt (@get_challenge_scalar F F pk')) as [c'|] eqn:Es.
    - assert (fv = number f) as -> by congruence. assert (n = f) as -> by congruence. split; [reflexivity|]. split; [lia|]. intros j Hj. lia.
    - apply (IH t (S f)) in H. destruct H as (H1 & H2 & H3). split; [exact H1|]. split; [lia|]. intros j Hj.
      destruct (Nat.eq_dec j f) as [->|Hne]; [|apply H3; lia]. exists pk', t'. split; [exact (challenge_spec _ _ _ E)|exact Es].
  Qed.
  Lemma fork_spec (t : Rescue (Base C)) : live t ->
    (fork_challenge 256 t = Running /\ no_challenge 256 t) \/
    exists c ci pk n t', fork_challenge 256 t = Done (c, ci, get_challenge_scalar pk, pk, n, t') /\ n < 256 /\
      f_sqrt (@get_challenge_scalar F F pk) = Some c /\ fmul c ci = fone /\ live t' /\
      (forall j, j < n -> exists p t2, challenge_after (absorb t (number j)) p t2 /\ f_sqrt (get_challenge_scalar p : F) = None) /\
      challenge_after (absorb t (number n)) pk t'.
  Proof.
    intro Ht. destruct (fork_eq CL 256 t Ht) as [H|(c & ci & pk & n & t' & E & Hn & [F1 F2] & Ht' & _)]; [left; exact H|right].
    exists c, ci, pk, n, t'. split; [exact E|]. split; [exact Hn|]. split; [exact F1|]. split; [exact F2|]. split; [exact Ht'|].
    unfold fork_challenge in E. destruct (find_fork 256 t fzero 0) as [[[[[c1 sq1] pk1] fv] n1]| |] eqn:E1; cbn [out_bind] in E; try discriminate E.
    destruct (get_challenge F (absorb t fv)) as [[again t1]| |] eqn:E2; cbn [out_bind] in E; try discriminate E.
    destruct (feqb_spec SO again pk1) as [->|]; cbn [out_assert out_bind] in E; [|discriminate E].
    destruct (f_invert c1) as [ci1|] eqn:E3; cbn [out_opt out_bind] in E; [|discriminate E].
    assert (n1 = n) as -> by congruence. assert (t1 = t') as -> by congruence. assert (pk1 = pk) as -> by congruence.
    change (fzero : Base C) with (number (C := C) 0) in E1. destruct (find_fork_spec 256 t 0 _ _ _ _ _ E1) as (-> & H2 & H3).
    split; [intros j Hj; apply H3; lia|exact (challenge_spec _ _ _ E2)].
  Qed.

  (** *** All rounds *)
  Notation wf_round m := (fun round : InnerProductRound C => m <= length (ip_L round) /\ m <= length (ip_R round) /\ m <= length (ip_l round) /\
                         m <= length (ip_r round) /\ Forall valid (ip_L round) /\ Forall valid (ip_R round)).
  Lemma forall_nth {A} (P : A -> Prop) l j x : Forall P l -> nth_error l j = Some x -> P x.
  Proof. intros H E. exact (proj1 (Forall_forall _ _) H _ (nth_error_In _ _ E)). Qed.

  Lemma rounds_spec m rounds : Forall (wf_round m) rounds -> forall s, live (v_transcript s) -> length (v_p s) = m -> length (v_v s) = m ->
    (verify_rounds m s rounds = Panicked /\ exists t, reached t /\ no_challenge (C := C) 256 t) \/
    exists s' packed forks cs cis, verify_rounds m s rounds = Done s' /\ rounds_run m (v_transcript s) rounds packed forks (v_transcript s') /\
      live (v_transcript s') /\ rooted packed cs /\ inverses cs cis /\
      v_challenges s' = v_challenges s ++ cs /\ v_challenges_inv s' = v_challenges_inv s ++ cis /\ v_packed s' = v_packed s ++ packed /\
      v_forks s' = v_forks s ++ forks /\ length (v_p s') = m /\ length (v_v s') = m /\
      forall j P v gp_, nth_error (v_p s) j = Some P -> nth_error (v_v s) j = Some v -> rep P gp_ ->
        exists Ls Rs ls rs gL gR P', 
          Forall2 (fun round L => nth_error (ip_L round) j = Some L) rounds Ls /\ Forall2 (fun round R => nth_error (ip_R round) j = Some R) rounds Rs /\
          Forall2 (fun round l => nth_error (ip_l round) j = Some l) rounds ls /\ Forall2 (fun round rr => nth_error (ip_r round) j = Some rr) rounds rs /\
          Forall2 rep Ls gL /\ Forall2 rep Rs gR /\ nth_error (v_p s') j = Some P' /\
          rep P' (gp gp_ (gp (zsum (map vs (squares cs)) gL) (zsum (map vs (squares cis)) gR))) /\
          nth_error (v_v s') j = Some (fadd v (fadd (dot (squares cs) ls) (dot (squares cis) rs))).
  Proof.
    induction 1 as [|round rounds (W1 & W2 & W3 & W4 & W5 & W6) _ IH]; intros s Ht Hp Hv.
    - right. exists s, [], [], [], []. cbn [verify_rounds]. rewrite !app_nil_r. split; [reflexivity|]. split; [constructor|]. split; [exact Ht|].
      split; [constructor|]. split; [constructor|]. do 4 (split; [reflexivity|]). split; [exact Hp|]. split; [exact Hv|].
      intros j P v g E1 E2 HR. exists [], [], [], [], [], [], P. do 6 (split; [constructor|]). split; [exact E1|]. cbn [squares map MultiexpP.zsum].
      split; [rewrite !gp_0_r; exact HR|]. rewrite E2. f_equal. unfold dot. cbn. ring.
    - cbn [verify_rounds]. unfold verify_round. destruct (sent_messages m round W1 W2 W3 W4) as (ms & Em & Hs & Hms). rewrite Em. step.
      rewrite append_messages_eq. pose proof (live_appended (v_transcript s) (spoken ms) Ht) as Ht0.
      destruct (fork_spec _ Ht0) as [[E HU]|(c & ci & pk & n & t' & E & Hn & Hc & Hci & Ht' & HF & HN)].
      { left. rewrite E. step. split; [reflexivity|]. eexists. split; [exact (proj2 Ht0)|exact HU]. }
      rewrite E. step.
      match goal with |- context [verify_rounds m ?a rounds] => set (s1 := a) end.
      assert (Hlen : length ms = m) by exact (proj1 Hs).
      assert (Hp1 : length (v_p s1) = m). { unfold s1. cbn [v_p]. rewrite map_length, combine_length, Hp, Hlen. lia. }
      assert (Hv1 : length (v_v s1) = m). { unfold s1. cbn [v_v]. rewrite map_length, combine_length, Hv, Hlen. lia. }
      destruct (IH s1 Ht' Hp1 Hv1) as [H|(s' & packed & forks & cs & cis & E1 & R1 & Ht2 & Hroot & Hinv & Q1 & Q2 & Q3 & Q4 & L1 & L2 & HJ)]; [left; exact H|right].
      exists s', (pk :: packed), (n :: forks), (c :: cs), (ci :: cis).
      split; [exact E1|]. split; [econstructor; try eassumption; congruence|]. split; [exact Ht2|]. split; [constructor; assumption|]. split; [constructor; assumption|].
      rewrite Q1, Q2, Q3, Q4. unfold s1. cbn [v_challenges v_challenges_inv v_packed v_forks]. rewrite <- !app_assoc. do 4 (split; [reflexivity|]).
      split; [exact L1|]. split; [exact L2|].
      intros j P v g EP Ev HR.
      assert (Hj : j < m). { rewrite <- Hp. apply nth_error_Some. congruence. }
      destruct (Hms j Hj) as (L & R & l & rr & M1 & M2 & M3 & M4 & M5).
      destruct (valid_ex CL L (forall_nth _ _ _ _ W5 M2)) as (gl & HL). destruct (valid_ex CL R (forall_nth _ _ _ _ W6 M3)) as (gr & HRr).
      assert (EP1 : nth_error (v_p s1) j = Some (c_add (c_add P (c_mul L (get_challenge_scalar pk))) (c_mul R (fsquare ci)))).
      { unfold s1. cbn [v_p]. rewrite nth_error_map. etransitivity; [exact (f_equal (option_map _) (nth_combine _ _ _ _ _ EP M1))|reflexivity]. }
      assert (EV1 : nth_error (v_v s1) j = Some (fadd (fadd v (fmul l (get_challenge_scalar pk))) (fmul rr (fsquare ci)))).
      { unfold s1. cbn [v_v]. rewrite nth_error_map. etransitivity; [exact (f_equal (option_map _) (nth_combine _ _ _ _ _ Ev M1))|reflexivity]. }
      pose proof (rep_add CL _ _ _ _ (rep_add CL _ _ _ _ HR (rep_mul CL L (get_challenge_scalar pk) gl HL)) (rep_mul CL R (fsquare ci) gr HRr)) as HR1.
      destruct (HJ j _ _ _ EP1 EV1 HR1) as (Ls & Rs & ls & rs & gL & gR & P' & B1 & B2 & B3 & B4 & B5 & B6 & B7 & B8 & B9).
      exists (L :: Ls), (R :: Rs), (l :: ls), (rr :: rs), (gl :: gL), (gr :: gR), P'.
      do 6 (split; [constructor; assumption|]). split; [exact B7|].
      rewrite (fsquare_mul SO) in B8. rewrite (fsquare_mul SO) in B9. rewrite <- (sqrt_eq CL _ _ Hc) in B8. rewrite <- (sqrt_eq CL _ _ Hc) in B9.
      cbn [squares map MultiexpP.zsum]. fold (squares cs). fold (squares cis). rewrite !(IdentityP.dot_cons SO). split.
      + match goal with |- rep P' ?x => match type of B8 with rep P' ?y => replace x with y; [exact B8|] end end.
        set (a := zmul (vs (fmul c c)) gl). set (b := zmul (vs (fmul ci ci)) gr). set (d := zsum (map vs (squares cs)) gL). set (e := zsum (map vs (squares cis)) gR).
        rewrite <- !gp_assoc. f_equal. abel.
      + rewrite B9. f_equal. ring.
  Qed.

  (** *** The final checks *)
  Lemma final_spec (s : VState C) g gg cs cis packed : v_challenges s = cs -> v_challenges_inv s = cis -> cs <> [] -> rooted packed cs -> inverses cs cis -> rep g gg ->
    forall (claims : list (PolynomialOpening C)) p v a, length p = length claims -> length v = length claims -> length claims <= length a -> Forall valid p ->
    exists b, verify_final s g claims p v a = Done b /\
      (b = true <-> forall j i P vj aj, nth_error claims j = Some i -> nth_error p j = Some P -> nth_error v j = Some vj -> nth_error a j = Some aj ->
         (represents P infinity \/ rep P (zmul (vs aj) gg)) /\ exists bj, powers_fold_to packed (po_point i) bj /\ vj = fmul aj bj).
  Proof.
    intros Ec Eci Hne Hroot Hinv Hg. induction claims as [|i claims IH]; intros p v a H1 H2 H3 Hval.
    - exists true. split; [reflexivity|]. split; [|reflexivity]. intros _ j i P vj aj Hj. destruct j; discriminate Hj.
    - destruct p as [|P p]; [discriminate H1|]. destruct v as [|vj v]; [discriminate H2|]. destruct a as [|aj a]; [cbn [length] in H3; lia|].
      cbn [length] in *. cbn [verify_final]. rewrite Ec, Eci. destruct (b_eq SL packed cs cis (po_point i) Hroot Hinv Hne) as (b & Eb & Hb). rewrite Eb. step.
      inversion Hval as [|? ? VP Vp]; subst. destruct (valid_ex CL P VP) as (gP & HP).
      pose proof (cl_eqb _ _ _ _ _ CL _ _ _ _ HP (rep_mul CL g aj gg Hg)) as HE.
      assert (HE' : c_eqb P (c_mul g aj) = true <-> represents P infinity \/ rep P (zmul (vs aj) gg)).
      { rewrite HE. split; (intros [H|H]; [left|right]).
        - rewrite <- H. exact HP.
        - unfold CurveTop.rep. rewrite <- H. exact HP.
        - exact (represents_fun CL _ _ _ HP H).
        - rewrite (rep_fun CL _ _ _ HP H). reflexivity. }
      destruct (IH p v a ltac:(congruence) ltac:(congruence) ltac:(lia) Vp) as (b' & E' & HB').
      destruct (c_eqb P (c_mul g aj)) eqn:E1; cbn [negb].
      + destruct (feqb_spec SO vj (fmul aj b)) as [E2|E2]; cbn [negb].
        * exists b'. split; [exact E'|]. rewrite HB'. split.
          -- intros H [|j] i0 P0 v0 a0 N1 N2 N3 N4; cbn [nth_error] in *; [|exact (H j _ _ _ _ N1 N2 N3 N4)].
             assert (i0 = i) as -> by congruence. assert (P0 = P) as -> by congruence. assert (v0 = vj) as -> by congruence. assert (a0 = aj) as -> by congruence.
             split; [apply HE'; reflexivity|]. exists b. split; [apply Hb; reflexivity|exact E2].
          -- intros H j i0 P0 v0 a0 N1 N2 N3 N4. exact (H (S j) _ _ _ _ N1 N2 N3 N4).
        * exists false. split; [reflexivity|]. split; [discriminate|]. intro H. exfalso.
          destruct (H 0 i P vj aj eq_refl eq_refl eq_refl eq_refl) as [_ (bj & Hbj & Ev)]. apply Hb in Hbj. apply E2. rewrite Ev, <- Hbj. reflexivity.
      + exists false. split; [reflexivity|]. split; [discriminate|]. intro H. exfalso.
        destruct (H 0 i P vj aj eq_refl eq_refl eq_refl eq_refl) as [HX _]. apply HE' in HX. congruence.
  Qed.

  Lemma combination_iff ss Ps gs A : Forall2 rep Ps gs -> length ss = length Ps ->
    (combination ss Ps A <-> A = cl_point _ _ _ _ _ CL (zsum (map vs ss) gs)).
  Proof.
    intros HG HL. pose proof (Forall2_len _ _ _ HG) as EL. split.
    - intros (As & HA & HS). destruct (reps_ex CL _ _ HA) as (gs' & -> & HG'). rewrite (reps_fun CL _ _ _ HG' HG) in HS.
      apply (som_zsum CL) in HS; [exact HS|congruence].
    - intros ->. exists (map (cl_point _ _ _ _ _ CL) gs). split; [|apply (som_zsum CL); [congruence|reflexivity]].
      clear - HG. induction HG as [|P g l gs H _ IH]; constructor; [exact H|exact IH].
  Qed.
  Lemma columns_fun {A B} (f : A -> option B) l l1 l2 : Forall2 (fun a b => f a = Some b) l l1 -> Forall2 (fun a b => f a = Some b) l l2 -> l1 = l2.
  Proof.
    intro H. revert l2. induction H as [|a b l l1 H _ IH]; intros l2 H2; inversion H2 as [|? b' ? l2' H3 H4]; subst; [reflexivity|]. f_equal; [congruence|apply IH, H4].
  Qed.

  Theorem verify_spec (pf : MultiPolynomialOpening C) t claims k : well_formed (length claims) k pf -> live t -> Forall (fun i => valid (po_commitment i)) claims ->
    (verify_proof pf t claims k = Panicked /\ exists t, reached t /\ no_challenge (C := C) 256 t) \/
    exists b packed forks t' cs cis, verify_proof pf t claims k = Done (b, packed, mo_g pf, forks, t') /\ rooted packed cs /\ inverses cs cis /\ length cs = k /\
      rounds_run (length claims) t (mo_rounds pf) packed forks t' /\
      (b = true <-> forall j claim a, nth_error claims j = Some claim -> nth_error (mo_a pf) j = Some a ->
         claim_passes (mo_g pf) (mo_rounds pf) packed j claim a) /\
      (b = true -> strict pf t claims -> forall j claim a, nth_error claims j = Some claim -> nth_error (mo_a pf) j = Some a ->
         claim_holds (mo_g pf) (mo_rounds pf) packed j claim a).
  Proof.
    intros (Hk & Hr & Ha & Vg & HW) Ht HV. unfold verify_proof. rewrite (proj2 (Nat.eqb_eq _ _) Hr). step.
    set (s0 := mkV t (map po_commitment claims) (map po_opening claims) [] [] [] []).
    destruct (rounds_spec (length claims) (mo_rounds pf) HW s0 Ht (map_length _ _) (map_length _ _))
      as [[E H]|(s' & packed & forks & cs & cis & E & R & Ht' & Hroot & Hinv & Q1 & Q2 & Q3 & Q4 & L1 & L2 & HJ)].
    { left. rewrite E. split; [reflexivity|exact H]. }
    right. rewrite E. step. cbn [s0 v_challenges v_challenges_inv v_packed v_forks app] in Q1, Q2, Q3, Q4.
    assert (Hcs : length cs = k).
    { rewrite <- (Forall2_len _ _ _ Hroot), <- Hr. clear - R. induction R; cbn [length]; [reflexivity|f_equal; assumption]. }
    assert (Hne : cs <> []) by (intros ->; cbn [length] in Hcs; lia).
    destruct (valid_ex CL _ Vg) as (gg & Hg).
    assert (HP : forall j i, nth_error claims j = Some i -> exists Ls Rs ls rs gL gR P' g0, 
          Forall2 (fun round L => nth_error (ip_L round) j = Some L) (mo_rounds pf) Ls /\ Forall2 (fun round R => nth_error (ip_R round) j = Some R) (mo_rounds pf) Rs /\
          Forall2 (fun round l => nth_error (ip_l round) j = Some l) (mo_rounds pf) ls /\ Forall2 (fun round rr => nth_error (ip_r round) j = Some rr) (mo_rounds pf) rs /\
          Forall2 rep Ls gL /\ Forall2 rep Rs gR /\ rep (po_commitment i) g0 /\ nth_error (v_p s') j = Some P' /\
          rep P' (gp g0 (gp (zsum (map vs (squares cs)) gL) (zsum (map vs (squares cis)) gR))) /\
          nth_error (v_v s') j = Some (fadd (po_opening i) (fadd (dot (squares cs) ls) (dot (squares cis) rs)))).
    { intros j i Hj. destruct (valid_ex CL _ (forall_nth _ _ _ _ HV Hj)) as (g0 & H0).
      destruct (HJ j (po_commitment i) (po_opening i) g0) as (Ls & Rs & ls & rs & gL & gR & P' & H); [| |exact H0|].
      - cbn [s0 v_p]. rewrite nth_error_map, Hj. reflexivity.
      - cbn [s0 v_v]. rewrite nth_error_map, Hj. reflexivity.
      - exists Ls, Rs, ls, rs, gL, gR, P', g0. tauto. }
    assert (Vp : Forall valid (v_p s')).
    { apply Forall_forall. intros P Hin. apply In_nth_error in Hin. destruct Hin as (j & Hj).
      assert (Hlt : j < length claims) by (rewrite <- L1; apply nth_error_Some; congruence).
      destruct (nth_error claims j) as [i|] eqn:Ei; [|apply nth_error_None in Ei; lia].
      destruct (HP j i Ei) as (Ls & Rs & ls & rs & gL & gR & P' & g0 & _ & _ & _ & _ & _ & _ & _ & EP & HR & _). assert (P' = P) as -> by congruence. eexists. exact HR. }
    destruct (final_spec s' (mo_g pf) gg cs cis packed Q1 Q2 Hne Hroot Hinv Hg claims (v_p s') (v_v s') (mo_a pf) L1 L2 Ha Vp) as (b & Eb & Hb).
    exists b, packed, forks, (v_transcript s'), cs, cis. rewrite Eb. step. rewrite Q3, Q4. split; [reflexivity|]. split; [exact Hroot|]. split; [exact Hinv|]. split; [exact Hcs|].
    split; [exact R|].
    pose proof (Forall2_len _ _ _ Hinv) as Lci.
    assert (Lr : length cs = length (mo_rounds pf)) by congruence.
    split; [rewrite Hb; clear Eb Hb b; split|].
    - intros H j i a Hj Haj. destruct (HP j i Hj) as (Ls & Rs & ls & rs & gL & gR & P' & g0 & C1 & C2 & C3 & C4 & C5 & C6 & C7 & EP & HR & EV).
      destruct (H j i _ _ _ Hj EP EV Haj) as (HA & bj & Hbj & Ev).
      pose proof (Forall2_len _ _ _ C1). pose proof (Forall2_len _ _ _ C2). pose proof (Forall2_len _ _ _ C5). pose proof (Forall2_len _ _ _ C6).
      assert (HG : Forall2 rep (po_commitment i :: Ls ++ Rs) (g0 :: gL ++ gR)) by (constructor; [exact C7|apply Forall2_app; assumption]).
      assert (HS : zsum (map vs (fone :: squares cs ++ squares cis)) (g0 :: gL ++ gR) = gp g0 (gp (zsum (map vs (squares cs)) gL) (zsum (map vs (squares cis)) gR))).
      { cbn [map MultiexpP.zsum]. rewrite map_app, (zsum_app CL) by (rewrite map_length; unfold squares; rewrite map_length; congruence). rewrite (ol_one _ _ _ SO). f_equal. }
      exists cs, cis, Ls, Rs, ls, rs, (cl_point _ _ _ _ _ CL (gp g0 (gp (zsum (map vs (squares cs)) gL) (zsum (map vs (squares cis)) gR)))), (cl_point _ _ _ _ _ CL (zmul (vs a) gg)), bj.
      do 6 (split; [assumption|]). split.
      { apply (combination_iff _ _ _ _ HG); [cbn [length]; unfold squares; rewrite !app_length, !map_length; congruence|]. rewrite HS. reflexivity. }
      split. { apply (combination_iff [a] [mo_g pf] [gg]); [repeat constructor; exact Hg|reflexivity|]. cbn [map MultiexpP.zsum]. rewrite gp_0_r. reflexivity. }
      split. { destruct HA as [HA|HA]; [left; exact (represents_fun CL _ _ _ HR HA)|right; rewrite (rep_fun CL _ _ _ HR HA); reflexivity]. }
      split; [exact Hbj|exact Ev].
    - intros H j i P v a Hj EP EV Haj. destruct (HP j i Hj) as (Ls & Rs & ls & rs & gL & gR & P' & g0 & C1 & C2 & C3 & C4 & C5 & C6 & C7 & EP' & HR & EV').
      assert (P' = P) as -> by congruence. rewrite EV in EV'. injection EV' as ->.
      destruct (H j i a Hj Haj) as (cs' & cis' & Ls' & Rs' & ls' & rs' & A & B & bj & D1 & D2 & D3 & D4 & D5 & D6 & D7 & D8 & D9 & D10 & D11).
      pose proof (rooted_fun _ _ _ D1 Hroot) as ->. pose proof (inverses_unique SL _ _ _ D2 Hinv) as ->.
      pose proof (columns_fun _ _ _ _ D3 C1) as ->. pose proof (columns_fun _ _ _ _ D4 C2) as ->. pose proof (columns_fun _ _ _ _ D5 C3) as ->. pose proof (columns_fun _ _ _ _ D6 C4) as ->.
      pose proof (Forall2_len _ _ _ C1). pose proof (Forall2_len _ _ _ C2). pose proof (Forall2_len _ _ _ C5). pose proof (Forall2_len _ _ _ C6).
      assert (HG : Forall2 rep (po_commitment i :: Ls ++ Rs) (g0 :: gL ++ gR)) by (constructor; [exact C7|apply Forall2_app; assumption]).
      assert (HS : zsum (map vs (fone :: squares cs ++ squares cis)) (g0 :: gL ++ gR) = gp g0 (gp (zsum (map vs (squares cs)) gL) (zsum (map vs (squares cis)) gR))).
      { cbn [map MultiexpP.zsum]. rewrite map_app, (zsum_app CL) by (rewrite map_length; unfold squares; rewrite map_length; congruence). rewrite (ol_one _ _ _ SO). f_equal. }
      apply (combination_iff _ _ _ _ HG) in D7; [|cbn [length]; unfold squares; rewrite !app_length, !map_length; congruence]. rewrite HS in D7.
      apply (combination_iff [a] [mo_g pf] [gg]) in D8; [|repeat constructor; exact Hg|reflexivity]. cbn [map MultiexpP.zsum] in D8. rewrite gp_0_r in D8.
      split; [|exists bj; split; [exact D10|exact D11]].
      destruct D9 as [D9|D9]; [left; rewrite <- D9, D7; exact HR|right]. unfold CurveTop.rep. rewrite <- D8, <- D9, D7. exact HR.
    - intros Hbt (s2 & Es2 & HSt) j i a Hj Haj. fold s0 in Es2. assert (s2 = s') as -> by congruence.
      destruct (HP j i Hj) as (Ls & Rs & ls & rs & gL & gR & P' & g0 & C1 & C2 & C3 & C4 & C5 & C6 & C7 & EP & HR & EV).
      destruct (proj1 Hb Hbt j i _ _ _ Hj EP EV Haj) as (_ & bj & Hbj & Ev).
      destruct (HSt j P' a EP Haj) as (A & HA1 & HA2). pose proof (represents_fun CL _ _ _ HA2 (rep_mul CL _ a gg Hg)) as ->.
      pose proof (Forall2_len _ _ _ C1). pose proof (Forall2_len _ _ _ C2). pose proof (Forall2_len _ _ _ C5). pose proof (Forall2_len _ _ _ C6).
      assert (HG : Forall2 rep (po_commitment i :: Ls ++ Rs) (g0 :: gL ++ gR)) by (constructor; [exact C7|apply Forall2_app; assumption]).
      assert (HS : zsum (map vs (fone :: squares cs ++ squares cis)) (g0 :: gL ++ gR) = gp g0 (gp (zsum (map vs (squares cs)) gL) (zsum (map vs (squares cis)) gR))).
      { cbn [map MultiexpP.zsum]. rewrite map_app, (zsum_app CL) by (rewrite map_length; unfold squares; rewrite map_length; congruence). rewrite (ol_one _ _ _ SO). f_equal. }
      exists cs, cis, Ls, Rs, ls, rs, (cl_point _ _ _ _ _ CL (zmul (vs a) gg)), bj.
      do 6 (split; [assumption|]). split.
      { apply (combination_iff _ _ _ _ HG); [cbn [length]; unfold squares; rewrite !app_length, !map_length; congruence|]. rewrite HS. rewrite (rep_fun CL _ _ _ HR HA1). reflexivity. }
      split. { apply (combination_iff [a] [mo_g pf] [gg]); [repeat constructor; exact Hg|reflexivity|]. cbn [map MultiexpP.zsum]. rewrite gp_0_r. reflexivity. }
      split; [exact Hbj|exact Ev].
  Qed.
End Verify.
