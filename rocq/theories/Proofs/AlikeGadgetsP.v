(** The gadgets of num.rs, boolean.rs and rescue.rs make the same calls whatever the values are. *)
From Coq Require Import String List Bool Arith ZArith Lia.
From Verif Require Import Model.FieldTrait Model.Circuits Model.Num Model.Boolean Model.Rescue Model.RescueGadget Model.Recursion Spec.UniformSpec Proofs.AlikeP.
Import ListNotations.
Open Scope list_scope. Open Scope nat_scope.

Ltac rvar :=
  first [ assumption | reflexivity | exact I
        | match goal with
          | H : Rnum _ ?n ?n' |- num_var ?n = num_var ?n' => exact (proj1 H)
          | H : Rnum _ ?n _ |- ?V (num_var ?n) => exact (proj2 H)
          | H : same_bit _ ?n ?n' |- bit_var ?n = bit_var ?n' => exact (proj1 H)
          | H : same_bit _ ?n _ |- ?V (bit_var ?n) => exact (proj2 H)
          end
        | progress cbn [num_var bit_var]; first [assumption | reflexivity] ].
Ltac rel :=
  first [ rvar
        | lazymatch goal with
          | |- RLC _ (lc_sub_v _ _) _ => apply RLC_sub_v; rel
          | |- RLC _ (lc_add_v _ _) _ => apply RLC_add_v; rel
          | |- RLC _ (lc_sub_cv _ _ _) _ => apply RLC_sub_cv; rel
          | |- RLC _ (lc_add_cv _ _ _) _ => apply RLC_add_cv; rel
          | |- RLC _ (lc_from _) _ => apply RLC_from; rel
          | |- RLC _ lc_zero _ => apply RLC_zero
          | |- RLC _ (lc_sub_lc _ _) _ => apply RLC_sub_lc; rel
          | |- RLC _ (lc_add_lc _ _) _ => apply RLC_add_lc; rel
          | |- RLC _ (num_lc _) _ => apply RLC_num; rel
          | |- RLC _ (n_lc _ _) _ => apply RLC_n; rel
          | |- RLC _ (bool_lc _ _ _) _ => apply RLC_bool; rel
          | |- RLC _ (comb_lc _ _) _ => apply RLC_comb; rel
          | |- RLC _ (bits_lc _ _ _) _ => apply RLC_bits; rel
          | |- Rnum _ (mkNum _ _) (mkNum _ _) => split; rvar
          | |- Rnum _ (num_from_bit _) _ => apply Rnum_from_bit; rel
          | |- same_bit _ (mkBit _ _) (mkBit _ _) => split; rvar
          | |- same_bit _ (bit_one _) _ => split; rvar
          | |- RNum _ (n_from _) _ => apply RNum_from; rel
          | |- RNum _ (n_constant _) _ => apply RNum_const
          | |- RNum _ (n_neg _) _ => apply RNum_neg; rel
          | |- RNum _ (n_from_cn _ _) _ => apply RNum_from_cn; rel
          | |- RNum _ (n_scale _ _) _ => apply RNum_scale; rel
          | |- Rbool _ (Is _) (Is _) => change (@Rbool ?V (Is ?a) (Is ?b)) with (same_bit V a b); rel
          | |- Rcomb _ (comb_from _) _ => apply Rcomb_from; rel
          | |- Rcomb _ (comb_from_num _) _ => apply Rcomb_from_num; rel
          | |- Rcomb _ comb_zero _ => apply Rcomb_zero
          | |- Rcomb _ (comb_add _ _) _ => apply Rcomb_add; rel
          | |- Rcomb _ (comb_add_num _ _) _ => apply Rcomb_add_num; rel
          | |- Rcomb _ (comb_sub_num _ _) _ => apply Rcomb_sub_num; rel
          | |- Rcomb _ (comb_add_n _ _) _ => apply Rcomb_add_n; rel
          | |- Rcomb _ (comb_add_cn _ _ _) _ => apply Rcomb_add_cn; rel
          | |- Rcomb _ (comb_scale _ _) _ => apply Rcomb_scale; rel
          end ].
Ltac alet :=
  lazymatch goal with
  | |- alike ?i ?V ?R (let x := ?v in @?b x) (let y := ?v' in @?b' y) =>
      let a := fresh x in let a' := fresh x in pose (a := v); pose (a' := v'); change (alike i V R (b a) (b' a')); clearbody a; cbv beta
  end.
Ltac astep :=
  lazymatch goal with
  | |- alike _ _ _ (let _ := _ in _) _ => alet
  | |- alike _ _ _ (bind (multiply _ _) _) _ => apply alike_mulb; intros ? ? ? ? ? ? ?; cbv beta match
  | |- alike _ _ _ (bind (alloc _ _) _) _ => apply alike_allocb; intros ? ? ?; cbv beta match
  | |- alike _ _ _ (bind (enforce_zero _) _) _ => apply alike_lcb; [solve [rel]|]
  | |- alike _ _ _ (bind (namespace _ (num_alloc _)) _) _ => apply A_num_allocb; intros ? ?
  | |- alike _ _ _ (bind (namespace _ (bit_alloc _)) _) _ => apply A_bit_allocb; intros ? ? ?
  | |- alike _ _ _ (ret _) _ => apply alike_ret
  | |- alike _ _ _ (enforce_zero _) _ => apply alike_lc; solve [rel]
  | |- alike _ _ _ (bind (assert_ _) _) _ => apply alike_assertb; [|intro]
  | |- alike _ _ _ (namespace _ _) _ => apply alike_ns
  end.
(** a call of a gadget with the lemma [L], in front of the rest *)
Ltac acall L := first [eapply alike_nsb; [apply L; try rel|] | eapply alike_bind; [apply L; try rel|]]; cbv beta.

Section Num.
  Context {F : Field}.
  Variables (inp : Prop) (V : Var -> Prop) (one : Var).
  Hypothesis V1 : V one.
  Local Notation alike := (@alike F inp V _ _).
  Local Notation Rnum := (@Rnum F V). Local Notation RNum := (@RNum F V). Local Notation Rcomb := (@Rcomb F V).
  Local Notation Rbit := (same_bit V).

  Lemma A_pow5 x x' : alike (fun r r' => r = r' /\ V (fst r) /\ V (snd r)) (constrain_pow_five x) (constrain_pow_five x').
  Proof. unfold constrain_pow_five. repeat astep. cbn [fst snd]. tauto. Qed.
  Lemma A_num_alloc v v' : alike Rnum (num_alloc v) (num_alloc v').
  Proof. unfold num_alloc. repeat astep. rel. Qed.
  Lemma A_num_mul a a' b b' : Rnum a a' -> Rnum b b' -> alike Rnum (num_mul a b) (num_mul a' b').
  Proof. intros. unfold num_mul. repeat astep. rel. Qed.
  Lemma A_num_invert a a' : Rnum a a' -> alike Rnum (num_invert one a) (num_invert one a').
  Proof. intros. unfold num_invert. repeat astep. rel. Qed.
  Lemma A_num_sqrt a a' : Rnum a a' -> alike Rnum (num_sqrt a) (num_sqrt a').
  Proof. intros. unfold num_sqrt. repeat astep. rel. Qed.
  Lemma A_comb_mul a a' b b' : Rcomb a a' -> Rcomb b b' -> alike Rnum (comb_mul one a b) (comb_mul one a' b').
  Proof. intros. unfold comb_mul. repeat astep. rel. Qed.
  Lemma A_rescue_alpha a a' : Rcomb a a' -> alike Rnum (num_rescue_alpha one a) (num_rescue_alpha one a').
  Proof.
    intros. unfold num_rescue_alpha. repeat astep; [tauto|].
    acall A_pow5. intros [? ?] [? ?] (E & H1 & H2). injection E as <- <-. cbn [fst snd] in *. repeat astep. rel.
  Qed.
  Lemma A_rescue_invalpha a a' : Rcomb a a' -> alike Rnum (num_rescue_invalpha one a) (num_rescue_invalpha one a').
  Proof.
    intros. unfold num_rescue_invalpha. repeat astep; [tauto|].
    acall A_pow5. intros [? ?] [? ?] (E & H1 & H2). injection E as <- <-. cbn [fst snd] in *. repeat astep. rel.
  Qed.
  Lemma alike_const {A B} (R : A -> B -> Prop) c c' (f : F -> CS F A) (g : F -> CS F B) : Rcomb c c' -> any_allocated c = false -> (forall x, alike R (f x) (g x)) ->
    alike R (bind (lift (ok_or_missing (comb_value c))) f) (bind (lift (ok_or_missing (comb_value c'))) g).
  Proof. intros [_ H] E H1. destruct (H E) as [<- H2]. destruct (comb_value c) as [x|]; [apply H1|congruence]. Qed.
  Lemma A_comb_evaluate c c' : Rcomb c c' -> alike RNum (comb_evaluate one c) (comb_evaluate one c').
  Proof.
    intro H. unfold comb_evaluate. rewrite <- (Rcomb_any _ _ _ H). destruct (any_allocated c) eqn:E; [repeat astep; rel|].
    apply alike_const; auto. intro x. repeat astep. rel.
  Qed.
  Lemma A_comb_rescue_alpha c c' : Rcomb c c' -> alike RNum (comb_rescue_alpha one c) (comb_rescue_alpha one c').
  Proof.
    intro H. unfold comb_rescue_alpha. rewrite <- (Rcomb_any _ _ _ H). destruct (any_allocated c) eqn:E.
    - acall A_rescue_alpha. intros. repeat astep. rel.
    - apply alike_const; auto. intro x. repeat astep. rel.
  Qed.
  Lemma A_comb_rescue_invalpha c c' : Rcomb c c' -> alike RNum (comb_rescue_invalpha one c) (comb_rescue_invalpha one c').
  Proof.
    intro H. unfold comb_rescue_invalpha. rewrite <- (Rcomb_any _ _ _ H). destruct (any_allocated c) eqn:E.
    - acall A_rescue_invalpha. intros. repeat astep. rel.
    - apply alike_const; auto. intro x. repeat astep. rel.
  Qed.
  (** *** boolean.rs *)
  Lemma A_bit_alloc v v' : alike (fun b b' => Rbit b b' /\ bit_value b' = None) (bit_alloc v) (bit_alloc v').
  Proof. unfold bit_alloc. repeat astep. split; [rel|reflexivity]. Qed.
  Lemma A_bit_check b b' : Rbit b b' -> alike (fun _ _ => True) (bit_check (F := F) b) (bit_check b').
  Proof. intros. unfold bit_check. repeat astep. exact I. Qed.
  Lemma A_unpack n n' : RNum n n' -> (forall x : F, length (fe_bits x) = 256) -> alike (fun l l' => Forall2 Rbit l l' /\ length l = 256) (unpack_fe one n) (unpack_fe one n').
  Proof.
    intros H H256. unfold unpack_fe.
    assert (HL : forall n : Num F, length (match n_value n with Some value => map Some (fe_bits value) | None => repeat None 256 end) = 256).
    { intro m. destruct (n_value m); [rewrite map_length; apply H256|apply repeat_length]. }
    pose proof (HL n) as L1. pose proof (HL n') as L2. cbv zeta.
    set (l := match n_value n with Some value => map Some (fe_bits value) | None => repeat None 256 end) in *.
    set (l' := match n_value n' with Some value => map Some (fe_bits value) | None => repeat None 256 end) in *.
    clearbody l l'. clear HL.
    eapply (alike_bind _ _ (fun bs bs' => Forall2 Rbit bs bs' /\ length bs = 256)).
    - assert (HM : forall l l' : list (option bool), length l = length l' ->
        alike (fun bs bs' => Forall2 Rbit bs bs' /\ length bs = length l) (mapM (fun value => namespace "bit i" (bit_alloc (ok_or_missing value))) l)
          (mapM (fun value => namespace "bit i" (bit_alloc (ok_or_missing value))) l')).
      { clear. induction l as [|v l IH]; intros [|v' l'] E; try discriminate E; cbn [mapM].
        - astep. split; [constructor|reflexivity].
        - astep. eapply alike_bind; [apply IH; injection E as E; exact E|]. intros bs bs' [Hb Hl]. astep. split; [constructor; [rel|exact Hb]|]. cbn [length]. congruence. }
      rewrite <- L1. apply HM. congruence.
    - intros bs bs' [Hb Hl]. astep. astep. split; assumption.
  Qed.
End Num.

Section Rescue.
  Context {F : Field}.
  Variables (inp : Prop) (V : Var -> Prop) (one : Var).
  Hypothesis V1 : V one.
  Local Notation alike := (@alike F inp V _ _).
  Local Notation Rnum := (@Rnum F V). Local Notation RNum := (@RNum F V). Local Notation Rcomb := (@Rcomb F V).
  Local Notation Rbit := (same_bit V).

  Definition Ropt (x x' : option (Num F)) : Prop := match x, x' with Some n, Some n' => RNum n n' | None, None => True | _, _ => False end.
  Definition Rsponge (s s' : GSpongeState F) : Prop :=
    match s, s' with GAbsorbing i, GAbsorbing i' => Forall2 Ropt i i' | GSqueezing l, GSqueezing l' => l = l' | _, _ => False end.
  Definition Rgad (g g' : RescueGadget F) : Prop :=
    Rsponge (g_sponge g) (g_sponge g') /\ Forall2 Rcomb (g_state g) (g_state g') /\ g_mds g = g_mds g' /\ Forall2 (Forall2 RNum) (g_keys g) (g_keys g').

  Lemma Forall2_zip {A B A' B' X Y} (RA : A -> A' -> Prop) (RB : B -> B' -> Prop) (RX : X -> Y -> Prop) f g l l' m m' :
    (forall a a' b b', RA a a' -> RB b b' -> RX (f a b) (g a' b')) -> Forall2 RA l l' -> Forall2 RB m m' -> Forall2 RX (zip_with f l m) (zip_with g l' m').
  Proof.
    intros H H1. revert m m'. induction H1 as [|a a' l l' Ha Hl IH]; intros m m' H2; [constructor|].
    destruct H2 as [|b b' m m' Hb Hm]; [constructor|]. unfold zip_with. cbn [combine map]. constructor; [apply H; assumption|apply IH, Hm].
  Qed.
  Lemma Forall2_repeat {A B} (R : A -> B -> Prop) a b n : R a b -> Forall2 R (repeat a n) (repeat b n).
  Proof. intro H. induction n; constructor; assumption. Qed.
  Lemma Forall2_same {A} (R : A -> A -> Prop) l : (forall a, In a l -> R a a) -> Forall2 R l l.
  Proof. induction l; intro H; constructor; [apply H; left; reflexivity|]. apply IHl. intros b Hb. apply H. right. exact Hb. Qed.

  Lemma A_sbox r st st' : Forall2 Rcomb st st' -> alike (Forall2 RNum) (sbox_layer one r st) (sbox_layer one r st').
  Proof.
    intro H. unfold sbox_layer. eapply alike_mapM; [|exact H]. intros x y Hxy. destruct (r mod 2 =? 0).
    - apply alike_ns. apply A_comb_rescue_invalpha; assumption.
    - apply alike_ns. apply A_comb_rescue_alpha; assumption.
  Qed.
  Lemma R_mds_row row mid mid' key key' : Forall2 RNum mid mid' -> RNum key key' -> Rcomb (mds_row row mid key) (mds_row row mid' key').
  Proof.
    intros H Hk. unfold mds_row. apply Rcomb_add_n; [|exact Hk].
    cut (forall c c', Rcomb c c' -> Rcomb (fold_left (fun sum '(coeff, entry) => comb_add_cn sum (CFull coeff) entry) (combine row mid) c)
      (fold_left (fun sum '(coeff, entry) => comb_add_cn sum (CFull coeff) entry) (combine row mid') c')). { intro X. apply X. rel. }
    revert row. induction H as [|a a' mid mid' Ha H IH]; intros [|x row] c c' Hc; cbn [combine fold_left]; try exact Hc.
    apply IH. rel.
  Qed.
  Lemma R_mds_layer mds mid mid' keys keys' : Forall2 RNum mid mid' -> Forall2 RNum keys keys' -> Forall2 Rcomb (mds_layer mds mid keys) (mds_layer mds mid' keys').
  Proof.
    intros H Hk. unfold mds_layer. eapply (Forall2_zip eq); [|apply Forall2_same; reflexivity|exact Hk].
    intros a a' b b' <- Hb. apply R_mds_row; assumption.
  Qed.
  Lemma A_rounds mds keys keys' : Forall2 (Forall2 RNum) keys keys' -> forall r st st', Forall2 Rcomb st st' ->
    alike (Forall2 Rcomb) (g_rounds one mds r keys st) (g_rounds one mds r keys' st').
  Proof.
    intro H. induction H as [|k k' keys keys' Hk H IH]; intros r st st' Hst; cbn [g_rounds]; [astep; exact Hst|].
    eapply alike_bind; [apply A_sbox, Hst|]. intros mid mid' Hm. apply IH. apply R_mds_layer; assumption.
  Qed.
  Lemma A_rescue_f mds keys keys' st st' : Forall2 (Forall2 RNum) keys keys' -> Forall2 Rcomb st st' ->
    alike (Forall2 Rcomb) (g_rescue_f one st mds keys) (g_rescue_f one st' mds keys').
  Proof.
    intros [|k k' ks ks' Hk Hks] Hs; cbn [g_rescue_f]; [astep; exact Hs|]. apply A_rounds; [exact Hks|].
    eapply Forall2_zip; [|exact Hs|exact Hk]. intros. rel.
  Qed.
  Lemma A_evaluate_all st st' : Forall2 Rcomb st st' -> alike (Forall2 RNum) (evaluate_all one st) (evaluate_all one st').
  Proof. intro H. unfold evaluate_all. eapply alike_mapM; [|exact H]. intros x y Hxy. apply alike_ns. apply A_comb_evaluate; assumption. Qed.
  Lemma A_key_rounds mds cs cs' : Forall2 (Forall2 RNum) cs cs' -> forall r st st', Forall2 Rcomb st st' ->
    alike (Forall2 (Forall2 RNum)) (g_key_rounds one mds r cs st) (g_key_rounds one mds r cs' st').
  Proof.
    intro H. induction H as [|k k' keys keys' Hk H IH]; intros r st st' Hst; cbn [g_key_rounds]; [astep; constructor|].
    eapply alike_bind; [apply A_sbox, Hst|]. intros mid mid' Hm. cbv zeta.
    eapply alike_bind; [apply A_evaluate_all, R_mds_layer; assumption|]. intros key key' Hkey.
    eapply alike_bind; [apply IH, R_mds_layer; assumption|]. intros ks ks' Hks. astep. constructor; assumption.
  Qed.
  Lemma A_gadget_new : alike Rgad (gadget_new one) (gadget_new one).
  Proof.
    unfold gadget_new, g_generate_key_schedule. cbv zeta.
    assert (HC : Forall2 RNum (repeat (n_constant fone) RESCUE_M) (repeat (n_constant fone) RESCUE_M)) by (apply Forall2_repeat; rel).
    assert (HS : Forall2 Rcomb (zip_with (fun e k => comb_add_n (comb_from e) k) (repeat (n_constant fzero) RESCUE_M) (repeat (n_constant fone) RESCUE_M))
      (zip_with (fun e k => comb_add_n (comb_from e) k) (repeat (n_constant fzero) RESCUE_M) (repeat (n_constant fone) RESCUE_M))).
    { eapply (Forall2_zip RNum); [|apply Forall2_repeat; rel|exact HC]. intros. rel. }
    eapply alike_bind; [eapply alike_bind; [apply A_evaluate_all, HS|]; intros key key' Hk; eapply alike_bind; [apply A_key_rounds; [apply Forall2_repeat, HC|exact HS]|];
      intros ks ks' Hks; astep; exact (Forall2_cons _ _ Hk Hks)|].
    intros ks ks' Hks. astep. split; [|split; [|split; [reflexivity|exact Hks]]].
    - apply Forall2_repeat. exact I.
    - apply Forall2_repeat. rel.
  Qed.
  Lemma A_pad i i' : Forall2 Ropt i i' -> alike (Forall2 RNum) (g_pad one i) (g_pad one i').
  Proof.
    intro H. unfold g_pad. repeat astep. induction H as [|a a' l l' Ha H IH]; cbn [map]; constructor; [|exact IH].
    destruct a, a'; cbn in Ha; try tauto. rel.
  Qed.
  Lemma R_add_into st st' p p' : Forall2 Rcomb st st' -> Forall2 RNum p p' -> Forall2 Rcomb (g_add_into st p) (g_add_into st' p').
  Proof.
    intro H. revert p p'. induction H as [|a a' l l' Ha H IH]; intros p p' Hp; cbn [g_add_into]; [constructor|].
    destruct Hp as [|x x' p p' Hx Hp]; [constructor; assumption|]. constructor; [rel|apply IH, Hp].
  Qed.
  Lemma A_duplex mds keys keys' st st' i i' : Forall2 (Forall2 RNum) keys keys' -> Forall2 Rcomb st st' -> Forall2 Ropt i i' ->
    alike (Forall2 Rcomb) (g_rescue_duplex one st i mds keys) (g_rescue_duplex one st' i' mds keys').
  Proof.
    intros Hk Hs Hi. unfold g_rescue_duplex. eapply alike_nsb; [apply A_pad, Hi|]. intros p p' Hp. apply A_rescue_f; [exact Hk|]. apply R_add_into; assumption.
  Qed.
  Lemma R_fill n n' : RNum n n' -> forall i i', Forall2 Ropt i i' ->
    match fill n i, fill n' i' with Some j, Some j' => Forall2 Ropt j j' | None, None => True | _, _ => False end.
  Proof.
    intros Hn i i' H. induction H as [|a a' l l' Ha H IH]; cbn [fill]; [exact I|].
    destruct a as [a|], a' as [a'|]; cbn in Ha; try tauto.
    - destruct (fill n l), (fill n' l'); cbn in *; try tauto. constructor; assumption.
    - constructor; [exact Hn|exact H].
  Qed.
  Lemma R_sponge_absorb n n' : RNum n n' -> Rsponge (g_sponge_absorb n) (g_sponge_absorb n').
  Proof. intro H. constructor; [exact H|]. apply Forall2_repeat. exact I. Qed.
  Lemma A_absorb g g' n n' : Rgad g g' -> RNum n n' -> alike Rgad (gadget_absorb one g n) (gadget_absorb one g' n').
  Proof.
    intros (H1 & H2 & H3 & H4) Hn. unfold gadget_absorb. destruct (g_sponge g) as [i|l], (g_sponge g') as [i'|l']; cbn [Rsponge] in H1; try tauto.
    - pose proof (R_fill _ _ Hn _ _ H1) as HF. destruct (fill n i), (fill n' i'); try tauto.
      + astep. split; [exact HF|]. tauto.
      + rewrite <- H3. eapply alike_bind; [apply A_duplex; eassumption|]. intros st st' Hst. astep.
        split; [apply R_sponge_absorb, Hn|]. split; [exact Hst|]. split; [reflexivity|exact H4].
    - astep. split; [apply R_sponge_absorb, Hn|]. tauto.
  Qed.
  Lemma Forall2_set {A B} (R : A -> B -> Prop) l l' i a b : Forall2 R l l' -> R a b -> Forall2 R (list_set l i a) (list_set l' i b).
  Proof.
    intros H Hab. unfold list_set. apply Forall2_app.
    - revert i. induction H; intros [|i]; cbn [firstn]; constructor; auto.
    - constructor; [exact Hab|]. revert l l' H. generalize (S i) as j. induction j; intros l l' H; [exact H|]. destruct H; [constructor|]. apply IHj. assumption.
  Qed.
  Lemma Forall2_nth {A B} (R : A -> B -> Prop) l l' i a : Forall2 R l l' -> nth_error l i = Some a -> exists b, nth_error l' i = Some b /\ R a b.
  Proof.
    intro H. revert i. induction H; intros [|i] E; try discriminate E; cbn [nth_error] in *.
    - injection E as <-. eauto.
    - auto.
  Qed.
  Lemma A_squeeze_loop fuel : forall g g', Rgad g g' -> alike (fun r r' => Rnum (fst r) (fst r') /\ Rgad (snd r) (snd r')) (gadget_squeeze_loop one fuel g) (gadget_squeeze_loop one fuel g').
  Proof.
    induction fuel as [|fuel IH]; intros g g' (H1 & H2 & H3 & H4); cbn [gadget_squeeze_loop]; [apply al_panic|].
    destruct (g_sponge g) as [i|l], (g_sponge g') as [i'|l']; cbn [Rsponge] in H1; try tauto.
    - rewrite <- H3. eapply alike_nsb; [apply A_duplex; eassumption|]. intros st st' Hst. apply IH.
      split; [reflexivity|]. split; [exact Hst|]. split; [reflexivity|exact H4].
    - subst l'. destruct (first_unsqueezed l 0) as [i|].
      + eapply (alike_unwrapb inp V Rcomb); [intros a Ea; exact (Forall2_nth _ _ _ _ _ H2 Ea)|]. intros e e' He. repeat astep. cbn [fst snd].
        split; [rel|]. split; [reflexivity|]. split; [apply Forall2_set; [exact H2|rel]|]. tauto.
      + apply IH. split; [apply Forall2_repeat; exact I|]. tauto.
  Qed.
  Lemma A_squeeze g g' : Rgad g g' -> alike (fun r r' => Rnum (fst r) (fst r') /\ Rgad (snd r) (snd r')) (gadget_squeeze one g) (gadget_squeeze one g').
  Proof. apply A_squeeze_loop. Qed.
End Rescue.
