(** Soundness and completeness of a gadget proved together.  With [m = false]
    the judgement [JJ] is soundness, and with [m = true] completeness, where the
    values must be known and what the constraints say must hold. *)
From Coq Require Import String List Bool Arith ZArith Lia Ring Field.
From Verif Require Import Model.FieldTrait Model.Circuits Model.Num Model.Boolean Model.Util Model.Recursion
  Spec.FieldLaws Spec.CircuitSpec Spec.NumSpec Spec.BoolSpec Spec.UtilSpec Spec.CurveSpec
  Proofs.FieldGen Proofs.ZtoF Proofs.CircuitP Proofs.LcP Proofs.NumP Proofs.BoolP Proofs.UnpackP Proofs.ChallengeP Proofs.RecursionP.
Import ListNotations.
Open Scope nat_scope.
Open Scope list_scope.

Section Mode.
  Context {F : Field} {p : Z} {v : F -> Z} (FL : FieldLaws F p v) (one : Var).
  Let OL : OpsLaws F p v := fl_ops _ _ _ FL.
  Add Field Ff : (ffield OL).
  Variable w : assignment F.
  Hypothesis w_one : w one = fone.
  Variable m : bool.

  Definition JJ {A} (c : CS F A) (Q : A -> Prop) : Prop := if m then complete w c Q else sound w c Q.
  Definition need (P : Prop) : Prop := m = true -> P.
  Definition RA (n : AllocatedNum F) (x : F) : Prop := num_val w n = x /\ need (num_ok w n).
  Definition RN (n : Num F) (x : F) : Prop := n_val w n = x /\ need (n_ok w n).
  Definition RC (c : Combination F) (x : F) : Prop := comb_val w c = x /\ need (comb_ok w c).
  Definition RB (b : AllocatedBit) (x : bool) : Prop := bit_is w b x /\ need (bit_has w b x).

  Lemma need_imp (P Q : Prop) : (P -> Q) -> need P -> need Q.
  Proof. unfold need. auto. Qed.
  Lemma need_any (P : Prop) : P -> need P.
  Proof. unfold need. auto. Qed.

  Lemma J_ret {A} (a : A) (Q : A -> Prop) : Q a -> JJ (ret a) Q.
  Proof. unfold JJ. destruct m; [apply complete_ret|apply sound_ret]. Qed.
  Lemma J_bind {A B} (c : CS F A) (f : A -> CS F B) (Q1 : A -> Prop) (Q : B -> Prop) :
    JJ c Q1 -> (forall a, Q1 a -> JJ (f a) Q) -> JJ (bind c f) Q.
  Proof. unfold JJ. destruct m; [apply complete_bind|apply sound_bind]. Qed.
  Lemma J_ns {A} s (c : CS F A) (Q : A -> Prop) : JJ c Q -> JJ (namespace s c) Q.
  Proof. unfold JJ. destruct m; [apply complete_namespace|apply sound_namespace]. Qed.
  Lemma J_weaken {A} (c : CS F A) (Q Q' : A -> Prop) : JJ c Q -> (forall a, Q a -> Q' a) -> JJ c Q'.
  Proof. unfold JJ. destruct m; [apply complete_weaken|apply sound_weaken]. Qed.
  Lemma J_nsb {A B} s (c : CS F A) (f : A -> CS F B) (Q1 : A -> Prop) (Q : B -> Prop) :
    JJ c Q1 -> (forall a, Q1 a -> JJ (f a) Q) -> JJ (bind (namespace s c) f) Q.
  Proof. intros H1 H2. eapply J_bind; [apply J_ns, H1|exact H2]. Qed.
  Lemma J_assert {B} b (k : unit -> CS F B) (Q : B -> Prop) : need (b = true) -> (b = true -> JJ (k tt) Q) -> JJ (bind (assert_ b) k) Q.
  Proof.
    unfold JJ, need. intros H1 H2. destruct m; [apply complete_assert_k; auto|apply sound_assert_k; auto].
  Qed.
  Lemma J_unwrap {A B} (o : option A) (k : A -> CS F B) (Q : B -> Prop) : need (o <> None) -> (forall a, o = Some a -> JJ (k a) Q) ->
    JJ (bind (unwrap o) k) Q.
  Proof.
    unfold JJ, need. intros H1 H2. destruct o as [a|].
    - specialize (H2 a eq_refl). exact H2.
    - destruct m; [exfalso; apply H1; reflexivity|]. intros tr b E. inversion E.
  Qed.
  Lemma J_panic {A} (Q : A -> Prop) : need False -> JJ (Panic : CS F A) Q.
  Proof. unfold JJ, need. intros H. destruct m; [destruct (H eq_refl)|]. intros tr b E. inversion E. Qed.
  Lemma J_enforce {B} lc x (k : unit -> CS F B) (Q : B -> Prop) : lc_val w lc = x -> need (x = fzero) -> (x = fzero -> JJ (k tt) Q) ->
    JJ (bind (enforce_zero lc) k) Q.
  Proof.
    unfold JJ, need. intros <- H1 H2. destruct m; [apply complete_enforce_k; auto|apply sound_enforce_k; auto].
  Qed.
  Lemma J_enforce_last lc x (Q : unit -> Prop) : lc_val w lc = x -> need (x = fzero) -> (x = fzero -> Q tt) ->
    JJ (enforce_zero lc) Q.
  Proof.
    unfold JJ, need. intros <- H1 H2. destruct m; [apply complete_enforce; auto|apply sound_enforce; auto].
  Qed.
  Lemma J_foldM {A B} (f : B -> A -> CS F B) (I : list A -> B -> Prop) l b :
    (forall x l b, I (x :: l) b -> JJ (f b x) (I l)) -> I l b -> JJ (foldM f l b) (I []).
  Proof. unfold JJ. destruct m; [apply complete_foldM|apply sound_foldM]. Qed.
  Lemma J_mapM {A B X Y} (P : A -> X -> Prop) (S : X -> Y -> Prop) (Q : B -> Y -> Prop) (f : A -> CS F B) xs ys :
    (forall a x, In x ys -> P a x -> JJ (f a) (fun b => exists y, S x y /\ Q b y)) -> Forall2 P xs ys ->
    JJ (mapM f xs) (fun bs => exists zs, Forall2 S ys zs /\ Forall2 Q bs zs).
  Proof.
    intros H HF. induction HF as [|a x xs ys Ha _ IH]; cbn [mapM].
    - apply J_ret. exists []. split; constructor.
    - eapply J_bind; [apply (H a x (or_introl eq_refl) Ha)|]. intros b (z & Hz & Hb). cbv beta.
      eapply J_bind; [apply IH; intros a' x' Hx'; apply H; right; exact Hx'|]. intros bs (zs & Hzs & Hbs).
      apply J_ret. exists (z :: zs). split; constructor; assumption.
  Qed.

  (** *** values of combinations *)
  Lemma RC_from n x : RA n x -> RC (comb_from_num n) x.
  Proof. intros [<- H]. split; [apply (comb_from_num_val FL)|]. intro E. apply (comb_from_num_ok FL), H, E. Qed.
  Lemma RC_add_num c x n y : RC c x -> RA n y -> RC (comb_add_num c n) (fadd x y).
  Proof. intros [<- H1] [<- H2]. split; [apply (comb_add_num_val FL)|]. intro E. apply (comb_add_num_ok FL); auto. Qed.
  Lemma RC_sub_num c x n y : RC c x -> RA n y -> RC (comb_sub_num c n) (fsub x y).
  Proof. intros [<- H1] [<- H2]. split; [apply (comb_sub_num_val FL)|]. intro E. apply (comb_sub_num_ok FL); auto. Qed.
  Lemma RC_add c x d y : RC c x -> RC d y -> RC (comb_add c d) (fadd x y).
  Proof. intros [<- H1] [<- H2]. split; [apply (comb_add_val FL)|]. intro E. apply (comb_add_ok FL); auto. Qed.
  Lemma RC_lc c x : RC c x -> lc_val w (comb_lc one c) = x.
  Proof. intros [<- _]. apply (comb_lc_val FL one w w_one). Qed.
  Lemma RN_from n x : RA n x -> RN (n_from n) x.
  Proof. intros [<- H]. split; [apply (n_from_val FL)|]. intro E. apply (n_from_ok FL), H, E. Qed.
  Lemma RB_is bits bs : Forall2 RB bits bs -> Forall2 (bit_is w) bits bs.
  Proof. induction 1 as [|? ? ? ? [? ?]]; constructor; auto. Qed.
  Lemma RB_has bits bs : m = true -> Forall2 RB bits bs -> Forall2 (bit_has w) bits bs.
  Proof. intro E. induction 1 as [|? ? ? ? [? ?]]; constructor; auto. Qed.

  (** from the two halves *)
  Lemma J_two {A} (c : CS F A) (Qs Qc : A -> Prop) : sound w c Qs -> need (complete w c Qc) -> JJ c (fun a => Qs a /\ need (Qc a)).
  Proof.
    unfold JJ, need. intros H1 H2. destruct m.
    - eapply complete_weaken; [apply complete_sound; [exact (H2 eq_refl)|exact H1]|]. cbv beta. tauto.
    - eapply sound_weaken; [exact H1|]. cbv beta. intros a H. split; [exact H|discriminate].
  Qed.
  Lemma J_mul a x b y : RA a x -> RA b y -> JJ (num_mul a b) (fun o => RA o (fmul x y)).
  Proof.
    intros [<- H1] [<- H2]. apply J_two; [apply (num_mul_sound FL one w)|]. intro E. apply (num_mul_complete FL one w); auto.
  Qed.
  Lemma J_cmul a x b y : RC a x -> RC b y -> JJ (comb_mul one a b) (fun o => RA o (fmul x y)).
  Proof.
    intros [<- H1] [<- H2]. apply J_two; [apply (comb_mul_sound FL one w w_one)|]. intro E. apply (comb_mul_complete FL one w w_one); auto.
  Qed.
  Lemma J_invert a x : RA a x -> need (x <> fzero) -> JJ (num_invert one a) (fun o => exists xi, RA o xi /\ fmul x xi = fone).
  Proof.
    intros [<- H1] H2. eapply J_weaken; [apply J_two; [apply (num_invert_sound FL one w w_one)|]; intro E; apply (num_invert_complete FL one w w_one); auto|].
    cbv beta. intros o [H3 H4]. exists (num_val w o). split; [split; [reflexivity|exact H4]|]. rewrite <- H3. ring.
  Qed.
  Lemma num_sqrt_exact a r : num_ok w a -> f_sqrt (num_val w a) = Some r -> complete w (num_sqrt a) (fun o => num_ok w o /\ num_val w o = r).
  Proof.
    unfold num_ok, num_val. intros Ha Es. unfold num_sqrt. rewrite Ha. cbn [ok_or_missing rbind]. rewrite Es.
    apply (fl_sqrt_some _ _ _ FL) in Es.
    assert (Hm : fmul r r = w (num_var a)).
    { apply (ol_inj _ _ _ OL). rewrite (ol_mul _ _ _ OL). exact Es. }
    simpl. cstep. unfold num_alloc.
    repeat (cstep; try reflexivity; try exact Hm; lcv OL; cbn [num_var num_value ok]; try (wires w; ring)).
    simpl. split; congruence.
  Qed.
  Lemma J_sqrt a x : RA a x -> need (f_sqrt x <> None) ->
    JJ (num_sqrt a) (fun o => exists r, (fmul r r = x /\ need (f_sqrt x = Some r)) /\ RA o r).
  Proof.
    intros [<- H1] H2.
    eapply J_weaken.
    - apply (J_two _ _ (fun o => num_ok w o /\ f_sqrt (num_val w a) = Some (num_val w o)) (num_sqrt_sound FL one w a)).
      intro E. specialize (H2 E). destruct (f_sqrt (num_val w a)) as [r|] eqn:Er; [|congruence].
      eapply complete_weaken; [apply (num_sqrt_exact a r (H1 E) Er)|]. cbv beta. intros o [K1 K2]. rewrite K2. split; [exact K1|reflexivity].
    - cbv beta. intros o [H3 H4]. exists (num_val w o). split; [split; [exact H3|]|split; [reflexivity|]]; intro E; apply H4, E.
  Qed.
  Lemma J_obtain bits bs : Forall2 RB bits bs -> JJ (obtain_scalar_from_bits bits) (fun n => RA n (fz (bits_val bs))).
  Proof.
    intro H. eapply J_weaken.
    - apply J_two; [apply (obtain_scalar_sound FL w bits bs), RB_is, H|]. intro E. apply (obtain_scalar_complete FL w bits bs), RB_has; assumption.
    - cbv beta. intros n [H1 H2]. split; [exact H1|]. intro E. apply H2, E.
  Qed.
  Lemma J_challenge_scalar bits bs : Forall2 RB bits bs -> need (length bits = 128) ->
    JJ (g_get_challenge_scalar one bits) (fun n => RA n (bits_scalar bs)).
  Proof.
    intros H HL. eapply J_weaken.
    - apply J_two; [apply (challenge_scalar_sound FL one w w_one bits bs), RB_is, H|]. intro E. apply (challenge_scalar_complete FL one w w_one bits bs); [apply RB_has; assumption|apply HL, E].
    - cbv beta. intros n [H1 H2]. split; [exact H1|]. intro E. apply H2, E.
  Qed.
  Lemma RA_vals l xs : Forall2 RA l xs -> xs = map (num_val w) l.
  Proof. induction 1 as [|a x l xs [<- _] _ IH]; [reflexivity|]. cbn [map]. rewrite <- IH. reflexivity. Qed.
  Lemma RA_oks l xs : m = true -> Forall2 RA l xs -> Forall (num_ok w) l.
  Proof. intro E. induction 1 as [|a x l xs [_ H] _ IH]; constructor; auto. Qed.
  Lemma J_compute_b x xv cs xs cis is_ : RA x xv -> Forall2 RA cs xs -> Forall2 RA cis is_ -> need (length xs = length is_ /\ xs <> []) ->
    JJ (g_compute_b one x cs cis) (fun c => exists b, RC c b /\ compute_b xv xs is_ = Some b).
  Proof.
    intros Hx H1 H2 HN. eapply J_weaken.
    - apply (J_two _ _ (fun c => comb_ok w c /\ compute_b (num_val w x) (map (num_val w) cs) (map (num_val w) cis) = Some (comb_val w c)) (compute_b_sound FL one w w_one x cs cis)). intro E. destruct (HN E) as [L1 L2].
      apply (compute_b_complete FL one w w_one x cs cis).
      + rewrite (UnpackP.Forall2_length _ _ _ H1), (UnpackP.Forall2_length _ _ _ H2). exact L1.
      + intros ->. inversion H1; subst. apply L2. reflexivity.
      + apply Hx, E.
      + apply (RA_oks _ _ E H1).
      + apply (RA_oks _ _ E H2).
    - cbv beta. intros c [K1 K2]. exists (comb_val w c). rewrite (RA_vals _ _ H1), (RA_vals _ _ H2). destruct Hx as [<- _].
      split; [split; [reflexivity|]|exact K1]. intro E. apply K2, E.
  Qed.
  Lemma J_equal_unless bc b l r xs ys : RB bc b -> Forall2 RB l xs -> Forall2 RB r ys -> need (length xs = length ys) -> need (b = false -> xs = ys) ->
    JJ (equal_unless_base_case one bc l r) (fun _ => b = true \/ xs = ys).
  Proof.
    intros Hb H1 H2 HL HQ. eapply J_weaken.
    - apply (J_two _ _ (fun _ => True) (equal_unless_sound FL one w w_one bc b l r xs ys (proj1 Hb) (RB_is _ _ H1) (RB_is _ _ H2))).
      intro E. apply (equal_unless_complete FL one w w_one bc b l r xs ys); [apply Hb, E|apply (RB_has _ _ E H1)|apply (RB_has _ _ E H2)| |exact (HQ E)].
      rewrite (UnpackP.Forall2_length _ _ _ H1), (UnpackP.Forall2_length _ _ _ H2). exact (HL E).
    - cbv beta. tauto.
  Qed.
  Lemma J_num_equal bc b x y xv yv : RB bc b -> RC x xv -> RC y yv -> need (b = false -> xv = yv) ->
    JJ (num_equal_unless_base_case one bc x y) (fun _ => b = true \/ xv = yv).
  Proof.
    intros Hb [<- H1] [<- H2] HQ. eapply J_weaken.
    - apply (J_two _ _ (fun _ => True) (num_equal_sound FL one w w_one bc b x y (proj1 Hb))).
      intro E. apply (num_equal_complete FL one w w_one bc b x y); [apply Hb, E|apply H1, E|apply H2, E|exact (HQ E)].
    - cbv beta. tauto.
  Qed.
End Mode.
