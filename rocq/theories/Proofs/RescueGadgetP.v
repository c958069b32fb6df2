(** The sponge circuit computes the native sponge. *)
From Coq Require Import String List Bool ZArith Lia Ring Field.
From Verif Require Import Model.FieldTrait Model.Circuits Model.Num Model.Rescue Model.RescueGadget
  Spec.FieldLaws Spec.CircuitSpec Spec.NumSpec Spec.RescueSpec Proofs.FieldGen Proofs.CircuitP Proofs.LcP
  Proofs.NumP Proofs.AlwaysP Proofs.RescueP Proofs.SpongeP.
Import ListNotations.
Open Scope nat_scope.
Open Scope list_scope.

Section Generic.
  Context {F : Field} {p v} (FL : FieldLaws F p v) (one : Var).
  Let OL := fl_ops _ _ _ FL.
  Add Field Ff : (ffield OL).
  Variable J : forall A, CS F A -> (A -> Prop) -> Prop.
  Arguments J {A}.
  Variable RC : Combination F -> F -> Prop.
  Variable RN : Num F -> F -> Prop.
  Variable RA : AllocatedNum F -> F -> Prop.
  Hypothesis J_ret : forall A (a : A) (Q : A -> Prop), Q a -> J (ret a) Q.
  Hypothesis J_bind : forall A B (m : CS F A) (f : A -> CS F B) (Q1 : A -> Prop) (Q : B -> Prop),
    J m Q1 -> (forall a, Q1 a -> J (f a) Q) -> J (bind m f) Q.
  Hypothesis J_ns : forall A s (m : CS F A) (Q : A -> Prop), J m Q -> J (namespace s m) Q.
  Hypothesis J_alpha : forall c x, RC c x -> J (comb_rescue_alpha one c) (fun o => RN o (pow5 x)).
  Hypothesis J_invalpha : forall c x, RC c x ->
    J (comb_rescue_invalpha one c) (fun o => RN o (pow F x (f_RESCUE_INVALPHA F))).
  Hypothesis J_evaluate : forall c x, RC c x -> J (comb_evaluate one c) (fun o => RN o x).
  Hypothesis R_const : forall x, RN (n_constant x) x.
  Hypothesis R_from : forall n x, RN n x -> RC (comb_from n) x.
  Hypothesis R_add : forall c x n y, RC c x -> RN n y -> RC (comb_add_n c n) (fadd x y).
  Hypothesis R_addc : forall c x k n y, RC c x -> RN n y -> RC (comb_add_cn c (CFull k) n) (fadd x (fmul k y)).
  (** the allocated one of [pad], and the squeezed element *)
  Hypothesis J_one : forall B (f : AllocatedNum F -> CS F B) (Q : B -> Prop),
    (forall o, RN (n_from o) fone -> J (f o) Q) ->
    J (bind (namespace "TODO remove this" (num_alloc (Ok fone))) (fun o =>
       bind (enforce_zero (lc_sub_v (num_lc o) one)) (fun _ => f o))) Q.
  Hypothesis J_out : forall B (f : AllocatedNum F -> CS F B) (Q : B -> Prop) c x, RC c x ->
    (forall o, RA o x -> RC (comb_from_num o) x -> J (f o) Q) ->
    J (bind (namespace "squeezed element" (num_alloc (ok_or_missing (comb_value c)))) (fun out =>
       bind (enforce_zero (lc_sub_lc (num_lc out) (comb_lc one c))) (fun _ => f out))) Q.

  Lemma J_mapM {A B X} (P : A -> X -> Prop) (Q : B -> X -> Prop) (f : A -> CS F B) (g : X -> X) xs ys :
    (forall a x, P a x -> J (f a) (fun b => Q b (g x))) -> Forall2 P xs ys ->
    J (mapM f xs) (fun bs => Forall2 Q bs (map g ys)).
  Proof.
    intros H HF. induction HF as [|a x xs ys Ha _ IH]; cbn [mapM map].
    - apply J_ret. constructor.
    - eapply J_bind; [apply H, Ha|]. intros b Hb. eapply J_bind; [exact IH|]. intros bs Hbs.
      apply J_ret. constructor; assumption.
  Qed.

  Lemma J_sbox r st sv : Forall2 RC st sv ->
    J (sbox_layer one r st) (fun mid => Forall2 RN mid (map (fun x => pow_vartime F x (@round_exp F r)) sv)).
  Proof.
    intro H. unfold sbox_layer. eapply J_mapM; [|exact H]. intros c x Hc. cbv beta.
    rewrite (round_pow FL). unfold round_exp. destruct (r mod 2 =? 0); apply J_ns.
    - apply J_invalpha, Hc.
    - rewrite (pow_alpha FL). apply J_alpha, Hc.
  Qed.
  Lemma R_row_fold row : forall mid mv acc x, Forall2 RN mid mv -> RC acc x ->
    RC (fold_left (fun sum '(coeff, entry) => comb_add_cn sum (CFull coeff) entry) (combine row mid) acc)
       (fold_left (fun acc t => fadd acc t) (zip_with fmul row mv) x).
  Proof.
    induction row as [|k row IH]; intros mid mv acc x Hm Ha; [exact Ha|].
    destruct Hm as [|n y mid mv Hn Hm]; [exact Ha|]. cbn [combine zip_with fold_left].
    apply IH; [exact Hm|]. apply R_addc; assumption.
  Qed.
  Lemma R_mds M mid mv keys kv : Forall2 RN mid mv -> Forall2 RN keys kv ->
    Forall2 RC (mds_layer M mid keys) (zip_with fadd (mds mv M) kv).
  Proof.
    intros Hm Hk. unfold mds_layer, mds. revert M. induction Hk as [|k x keys kv Hk _ IH]; intros [|row M];
      cbn [zip_with map]; constructor.
    - unfold mds_row. apply R_add; [|exact Hk]. apply R_row_fold; [exact Hm|]. apply R_from, R_const.
    - apply IH.
  Qed.
  Lemma J_rounds M keys kvs : Forall2 (Forall2 RN) keys kvs -> forall r st sv, Forall2 RC st sv ->
    J (g_rounds one M r keys st) (fun st' => Forall2 RC st' (rounds M r kvs sv)).
  Proof.
    intro Hk. induction Hk as [|k kv keys kvs Hk _ IH]; intros r st sv Hs; cbn [g_rounds rounds].
    - apply J_ret, Hs.
    - eapply J_bind; [apply (J_sbox r _ _ Hs)|]. intros mid Hm. apply IH. apply R_mds; assumption.
  Qed.
  Lemma R_zip st sv keys kv : Forall2 RC st sv -> Forall2 RN keys kv ->
    Forall2 RC (zip_with (fun entry key => comb_add_n entry key) st keys) (zip_with fadd sv kv).
  Proof.
    intros Hs. revert keys kv. induction Hs as [|c x st sv Hc _ IH]; intros keys kv Hk; [constructor|].
    destruct Hk as [|n y keys kv Hn Hk]; cbn [zip_with]; constructor; [apply R_add; assumption|apply IH, Hk].
  Qed.
  Lemma J_rescue_f M keys kvs st sv : Forall2 (Forall2 RN) keys kvs -> Forall2 RC st sv ->
    J (g_rescue_f one st M keys) (fun st' => Forall2 RC st' (rescue_f sv M kvs)).
  Proof.
    intros Hk Hs. unfold g_rescue_f, rescue_f. destruct Hk as [|k kv keys kvs Hk Hks]; [apply J_ret, Hs|].
    apply J_rounds; [exact Hks|]. apply R_zip; assumption.
  Qed.

  Lemma J_evaluate_all st sv : Forall2 RC st sv ->
    J (evaluate_all one st) (fun ns => Forall2 RN ns sv).
  Proof.
    intro H. unfold evaluate_all. rewrite <- (map_id sv). eapply J_mapM; [|exact H].
    intros c x Hc. apply J_ns, J_evaluate, Hc.
  Qed.
  Lemma J_key_rounds M cs cvs : Forall2 (Forall2 RN) cs cvs -> forall r st sv, Forall2 RC st sv ->
    J (g_key_rounds one M r cs st) (fun ks => Forall2 (Forall2 RN) ks (key_rounds M r cvs sv)).
  Proof.
    intro Hk. induction Hk as [|k kv keys kvs Hk _ IH]; intros r st sv Hs; cbn [g_key_rounds key_rounds].
    - apply J_ret. constructor.
    - eapply J_bind; [apply (J_sbox r _ _ Hs)|]. intros mid Hm.
      pose proof (R_mds M _ _ _ _ Hm Hk) as HS.
      eapply J_bind; [apply J_evaluate_all, HS|]. intros key Hkey.
      eapply J_bind; [apply (IH (S r) _ _ HS)|]. intros ks Hks. apply J_ret. constructor; assumption.
  Qed.
  Lemma F2_repeat {A B} (R : A -> B -> Prop) a b n : R a b -> Forall2 R (repeat a n) (repeat b n).
  Proof. intro H. induction n; cbn [repeat]; constructor; assumption. Qed.
  Lemma R_zip_from ks kv cs cv : Forall2 RN ks kv -> Forall2 RN cs cv ->
    Forall2 RC (zip_with (fun e k => comb_add_n (comb_from e) k) ks cs) (zip_with fadd kv cv).
  Proof.
    intros Hs. revert cs cv. induction Hs as [|c x st sv Hc _ IH]; intros keys kv' Hk; [constructor|].
    destruct Hk as [|n y keys kv' Hn Hk]; cbn [zip_with]; constructor; [apply R_add; [apply R_from|]; assumption|apply IH, Hk].
  Qed.
  Lemma J_key_schedule M mk mv : Forall2 RN mk mv ->
    J (g_generate_key_schedule one mk M) (fun ks => Forall2 (Forall2 RN) ks (generate_key_schedule mv M)).
  Proof.
    intro Hm. unfold g_generate_key_schedule, generate_key_schedule. cbv zeta.
    assert (Hc : Forall2 RN (repeat (n_constant (@fone F)) RESCUE_M) (repeat fone RESCUE_M)) by (apply F2_repeat, R_const).
    pose proof (R_zip_from _ _ _ _ Hm Hc) as HS.
    eapply J_bind; [apply J_evaluate_all, HS|]. intros key Hkey.
    eapply J_bind; [apply (J_key_rounds M _ _ (F2_repeat _ _ _ _ Hc) 0 _ _ HS)|].
    intros ks Hks. apply J_ret. constructor; assumption.
  Qed.

  (** duplex *)
  Definition RO (o : option (Num F)) (o' : option F) : Prop :=
    match o, o' with Some n, Some x => RN n x | None, None => True | _, _ => False end.
  Lemma J_pad inp iv : Forall2 RO inp iv -> J (g_pad one inp) (fun ns => Forall2 RN ns (pad iv)).
  Proof.
    intro H. unfold g_pad. apply J_one. intros o Ho. apply J_ret.
    unfold pad. induction H as [|a b inp iv Hab _ IH]; cbn [map]; constructor; [|exact IH].
    destruct a, b; cbn [RO] in Hab; try contradiction; [exact Hab|exact Ho].
  Qed.
  Lemma R_add_into st sv ns xs : Forall2 RC st sv -> Forall2 RN ns xs ->
    Forall2 RC (g_add_into st ns) (add_into sv xs).
  Proof.
    intros Hs. revert ns xs. induction Hs as [|c x st sv Hc Hs IH]; intros ns xs Hn; [constructor|].
    destruct Hn as [|n y ns xs Hn Hns]; cbn [g_add_into add_into]; constructor; try assumption.
    - apply R_add; assumption. - apply IH, Hns.
  Qed.
  Lemma J_duplex M keys kvs st sv inp iv : Forall2 (Forall2 RN) keys kvs -> Forall2 RC st sv -> Forall2 RO inp iv ->
    J (g_rescue_duplex one st inp M keys) (fun st' => Forall2 RC st' (fst (rescue_duplex sv iv M kvs))).
  Proof.
    intros Hk Hs Hi. unfold g_rescue_duplex. eapply J_bind; [apply J_ns, J_pad, Hi|]. intros ns Hns.
    apply J_rescue_f; [exact Hk|]. apply R_add_into; assumption.
  Qed.

  (** the sponge *)
  Definition visible (flag : bool) (x : F) : option F := if flag then None else Some x.
  Definition GR (g : RescueGadget F) (r : Rescue F) : Prop :=
    g_mds g = r_mds r /\ Forall2 (Forall2 RN) (g_keys g) (r_keys r) /\ Forall2 RC (g_state g) (r_state r) /\
    match g_sponge g, sponge r with
    | GAbsorbing inp, Absorbing iv => Forall2 RO inp iv
    | GSqueezing flags, Squeezing out => out = zip_with visible flags (r_state r) /\ length flags <= length (r_state r)
    | _, _ => False
    end.
  Lemma F2_RO_repeat n : Forall2 RO (repeat None n) (repeat None n).
  Proof. apply F2_repeat. exact I. Qed.
  Lemma J_new : J (gadget_new one) (fun g => GR g rescue_new).
  Proof.
    unfold gadget_new. cbv zeta. eapply J_bind; [apply J_key_schedule, F2_repeat, R_const|].
    intros ks Hks. apply J_ret. unfold GR, rescue_new. cbn [g_mds g_keys g_state g_sponge r_mds r_keys r_state sponge].
    split; [reflexivity|]. split; [exact Hks|]. split; [apply F2_repeat, R_from, R_const|]. apply F2_RO_repeat.
  Qed.
  Lemma R_fill n x inp iv : RN n x -> Forall2 RO inp iv ->
    match fill n inp, fill x iv with
    | Some inp, Some iv => Forall2 RO inp iv | None, None => True | _, _ => False
    end.
  Proof.
    intros Hn H. induction H as [|a b inp iv Hab H IH]; cbn [fill]; [exact I|].
    destruct a, b; cbn [RO] in Hab; try contradiction.
    - destruct (fill n inp), (fill x iv); cbn [option_map]; try contradiction; [|exact I]. constructor; [exact Hab|exact IH].
    - constructor; [exact Hn|exact H].
  Qed.
  Lemma R_sponge_absorb n x : RN n x -> Forall2 RO (Some n :: repeat None (SPONGE_RATE - 1)) (Some x :: repeat None (SPONGE_RATE - 1)).
  Proof. intro H. constructor; [exact H|apply F2_RO_repeat]. Qed.
  Lemma J_absorb g r n x : GR g r -> RN n x -> J (gadget_absorb one g n) (fun g' => GR g' (absorb r x)).
  Proof.
    intros (Hm & Hk & Hs & Hp) Hn. unfold gadget_absorb, absorb.
    destruct (g_sponge g) as [inp|flags], (sponge r) as [iv|out]; try contradiction.
    - pose proof (R_fill n x inp iv Hn Hp) as HF. destruct (fill n inp) as [inp'|], (fill x iv) as [iv'|]; try contradiction.
      + apply J_ret. unfold GR. cbn [g_mds g_keys g_state g_sponge r_mds r_keys r_state sponge]. auto.
      + eapply J_bind; [apply (J_duplex _ _ _ _ _ _ _ Hk Hs Hp)|]. intros st Hst. apply J_ret.
        rewrite Hm in *. destruct (rescue_duplex (r_state r) iv (r_mds r) (r_keys r)) as [st' o].
        unfold GR, sponge_absorb, g_sponge_absorb. cbn [g_mds g_keys g_state g_sponge r_mds r_keys r_state sponge fst] in *.
        pose proof (R_sponge_absorb n x Hn). auto.
    - apply J_ret. unfold GR, sponge_absorb, g_sponge_absorb. cbn [g_mds g_keys g_state g_sponge r_mds r_keys r_state sponge].
      pose proof (R_sponge_absorb n x Hn). auto.
  Qed.

  (** searching the output *)
  Lemma first_shift flags : forall i k, first_unsqueezed flags i = Some k -> i <= k.
  Proof.
    induction flags as [|[] flags IH]; intros i k; cbn [first_unsqueezed]; [discriminate| |].
    - intro H. apply IH in H. lia.
    - intros [= <-]. lia.
  Qed.
  Lemma first_S flags : forall i, first_unsqueezed flags (S i) = option_map S (first_unsqueezed flags i).
  Proof. induction flags as [|[] flags IH]; intro i; cbn [first_unsqueezed option_map]; auto. Qed.
  Lemma take_first_visible flags : forall sv : list F, length flags <= length sv ->
    match first_unsqueezed flags 0 with
    | Some i => exists x, nth_error sv i = Some x /\
        take_first (zip_with visible flags sv) = Some (x, zip_with visible (list_set flags i true) sv) /\
        i < length flags
    | None => take_first (zip_with visible flags sv) = None
    end.
  Proof.
    induction flags as [|b flags IH]; intros sv HL; cbn [first_unsqueezed zip_with].
    - reflexivity.
    - destruct sv as [|x sv]; cbn [length] in HL; [lia|]. destruct b.
      + cbn [visible take_first]. rewrite first_S. specialize (IH sv ltac:(lia)).
        destruct (first_unsqueezed flags 0) as [i|]; cbn [option_map].
        * destruct IH as (y & E1 & E2 & E3). exists y. split; [exact E1|]. rewrite E2. split; [reflexivity|cbn [length]; lia].
        * rewrite IH. reflexivity.
      + cbn [visible take_first]. exists x. split; [reflexivity|]. split; [reflexivity|cbn [length]; lia].
  Qed.
  Lemma list_set_length {A} (l : list A) i x : i < length l -> length (list_set l i x) = length l.
  Proof. intro H. unfold list_set. rewrite app_length. cbn [length]. rewrite firstn_length, skipn_length. lia. Qed.
  Lemma F2_nth_error {A B} (R : A -> B -> Prop) l l' i b : Forall2 R l l' -> nth_error l' i = Some b ->
    exists a, nth_error l i = Some a /\ R a b.
  Proof.
    intro H. revert i. induction H as [|x y l l' Hxy _ IH]; intros [|i] E; cbn [nth_error] in *; try discriminate E.
    - injection E as <-. eauto. - apply IH, E.
  Qed.
  Lemma F2_list_set {A B} (R : A -> B -> Prop) l l' i a b : Forall2 R l l' -> nth_error l' i = Some b -> R a b ->
    Forall2 R (list_set l i a) l'.
  Proof.
    intro H. revert i. induction H as [|x y l l' Hxy H IH]; intros [|i] E Ha; cbn [nth_error] in *; try discriminate E.
    - injection E as ->. constructor; assumption.
    - unfold list_set. cbn [firstn skipn app]. constructor; [exact Hxy|]. apply IH; assumption.
  Qed.
  Lemma visible_all n : forall sv : list F, zip_with visible (repeat false n) sv = map Some (firstn n sv).
  Proof.
    induction n as [|n IH]; intros [|x sv]; cbn [repeat zip_with firstn map]; try reflexivity. rewrite IH. reflexivity.
  Qed.
  Lemma J_squeeze fuel : forall g r x r', GR g r -> length (r_state r) = 13 ->
    (forall inp, length (fst (rescue_duplex (r_state r) inp (r_mds r) (r_keys r))) = 13) ->
    (forall st inp, length st = 13 -> length (fst (rescue_duplex st inp (r_mds r) (r_keys r))) = 13) ->
    squeeze_loop fuel r = Some (x, r') ->
    J (gadget_squeeze_loop one fuel g) (fun '(y, g') => RA y x /\ GR g' r').
  Proof.
    induction fuel as [|fuel IH]; intros g r x r' (Hm & Hk & Hs & Hp) HL HL1 HL2 E; [discriminate E|].
    cbn [squeeze_loop gadget_squeeze_loop] in *.
    destruct (g_sponge g) as [inp|flags], (sponge r) as [iv|out]; try contradiction.
    - eapply J_bind; [apply J_ns, (J_duplex _ _ _ _ _ _ _ Hk Hs Hp)|]. intros st Hst. rewrite Hm in *.
      specialize (HL1 iv).
      assert (E2 : snd (rescue_duplex (r_state r) iv (r_mds r) (r_keys r))
               = map Some (firstn SPONGE_RATE (fst (rescue_duplex (r_state r) iv (r_mds r) (r_keys r))))) by reflexivity.
      destruct (rescue_duplex (r_state r) iv (r_mds r) (r_keys r)) as [st' o]. cbn [fst snd] in *.
      eapply IH; [| | | |exact E]; cbn [r_state r_mds r_keys]; auto.
      unfold GR. cbn [g_mds g_keys g_state g_sponge r_mds r_keys r_state sponge].
      split; [reflexivity|]. split; [exact Hk|]. split; [exact Hst|].
      split; [rewrite visible_all; exact E2|]. rewrite repeat_length, HL1. unfold SPONGE_RATE, RESCUE_M. lia.
    - destruct Hp as [-> Hlen]. pose proof (take_first_visible flags (r_state r) Hlen) as HT.
      destruct (first_unsqueezed flags 0) as [i|].
      + destruct HT as (y & E1 & E2 & E3). rewrite E2 in E. injection E as <- <-.
        destruct (F2_nth_error _ _ _ _ _ Hs E1) as (c & Ec & Hc). rewrite Ec. cbn [unwrap].
        change (J (bind (namespace "squeezed element" (num_alloc (ok_or_missing (comb_value c)))) (fun out =>
          bind (enforce_zero (lc_sub_lc (num_lc out) (comb_lc one c))) (fun _ =>
          ret (out, mkGadget (GSqueezing (list_set flags i true)) (list_set (g_state g) i (comb_from_num out)) (g_mds g) (g_keys g)))))
          (fun '(y0, g') => RA y0 y /\ GR g'
             (mkRescue (Squeezing (zip_with visible (list_set flags i true) (r_state r))) (r_state r) (r_mds r) (r_keys r)))).
        eapply J_out; [exact Hc|]. intros o Ho Ho'. apply J_ret. split; [exact Ho|].
        unfold GR. cbn [g_mds g_keys g_state g_sponge r_mds r_keys r_state sponge].
        split; [exact Hm|]. split; [exact Hk|]. split; [apply (F2_list_set _ _ _ _ _ _ Hs E1 Ho')|].
        split; [reflexivity|]. rewrite list_set_length by exact E3. exact Hlen.
      + rewrite HT in E. eapply IH; [| | | |exact E]; cbn [r_state r_mds r_keys]; auto.
        unfold GR, g_empty, empty_block. cbn [g_mds g_keys g_state g_sponge r_mds r_keys r_state sponge].
        pose proof (F2_RO_repeat SPONGE_RATE). auto.
  Qed.

  (** circuits using the sponge *)
  Notation P := (fun s => staten s 20).
  Lemma duplex_length (st : list F) inp : length st = 13 ->
    length (fst (rescue_duplex st inp generate_mds_matrix (KS (F := F)))) = 13.
  Proof.
    intro H. assert (length (add_into st (pad inp)) = 13) as HA.
    { rewrite <- H. generalize (pad inp) as xs. clear. induction st as [|a st IH]; intros [|x xs]; cbn [add_into length]; try reflexivity.
      rewrite IH. reflexivity. }
    unfold rescue_duplex. cbv zeta. cbn [fst]. rewrite (rescue_f_eq FL) by exact HA. apply (staten_length FL), HA.
  Qed.
  Definition known (outs : list (AllocatedNum F)) : Prop := Forall (fun y => exists x, RA y x) outs.
  Definition usable (o : option (Num F)) : Prop := match o with Some n => exists x, RN n x | None => True end.
  Lemma known_F2 outs ys : Forall2 RA outs ys -> known outs.
  Proof. intro H. induction H; constructor; eauto. Qed.
  Lemma J_run cl : Forall (fun f => forall outs, known outs -> J (f outs) usable) cl ->
    forall g outs log h ys r d, Forall2 RO log h -> Forall2 RA outs ys -> GR g r -> NR r d ->
    (forall h', native_run rescue_new (h ++ h') = option_map (app ys) (native_run r h')) ->
    J (gadget_run one g outs log cl) (fun '(outs', log') =>
      exists h ys, Forall2 RO log' h /\ Forall2 RA outs' ys /\ native_run rescue_new h = Some ys).
  Proof.
    induction cl as [|f cl IH]; intros HC g outs log h ys r d Hl Ho Hg Hn Hr; cbn [gadget_run].
    - apply J_ret. exists h, ys. split; [exact Hl|]. split; [exact Ho|]. specialize (Hr []).
      rewrite app_nil_r in Hr. rewrite Hr. cbn [native_run option_map]. rewrite app_nil_r. reflexivity.
    - inversion HC as [|? ? Hf HC']; subst. eapply J_bind; [apply Hf, (known_F2 _ _ Ho)|].
      intros [n|] Hu; cbn [usable] in Hu.
      + destruct Hu as [x Hx]. eapply J_bind; [apply (J_absorb _ _ _ _ Hg Hx)|]. intros g' Hg'.
        eapply (IH HC' g' outs _ (h ++ [Some x]) ys (absorb r x)); [| |exact Hg'| |].
        * apply Forall2_app; [exact Hl|]. constructor; [exact Hx|constructor].
        * exact Ho.
        * apply (absorb_NR FL P); [|exact Hn]. intros s Hs. apply (permutation_staten FL), Hs.
        * intro h'. rewrite <- app_assoc. cbn [app]. rewrite Hr. reflexivity.
      + assert (HP : forall s, length s = 13 -> rescue_permutation s (P s)) by (intros s Hs; apply (permutation_staten FL), Hs).
        destruct (squeeze_NR FL P HP _ _ Hn) as (r' & E & Hn').
        assert (HL : length (r_state r) = 13 /\ r_mds r = generate_mds_matrix /\ r_keys r = KS (F := F)).
        { destruct Hn as (E1 & E2 & E3 & E4 & _). rewrite E1. auto. }
        destruct HL as (L1 & L2 & L3).
        eapply J_bind; [eapply (J_squeeze 3 _ _ _ _ Hg L1); [| |exact E]; rewrite L2, L3; intros; apply duplex_length; assumption|].
        intros [y g'] [Hy Hg'].
        eapply (IH HC' g' _ _ (h ++ [None]) (ys ++ [_]) r'); [| |exact Hg'|exact Hn'|].
        * apply Forall2_app; [exact Hl|]. constructor; [exact I|constructor].
        * apply Forall2_app; [exact Ho|]. constructor; [exact Hy|constructor].
        * intro h'. rewrite <- app_assoc. cbn [app]. rewrite Hr. cbn [native_run]. rewrite E.
          destruct (native_run r' h'); cbn [option_map]; [|reflexivity]. rewrite <- app_assoc. reflexivity.
  Qed.
  Lemma J_sponge_circuit cl : Forall (fun f => forall outs, known outs -> J (f outs) usable) cl ->
    J (sponge_circuit one cl) (fun '(outs', log') =>
      exists h ys, Forall2 RO log' h /\ Forall2 RA outs' ys /\ native_run rescue_new h = Some ys).
  Proof.
    intro HC. unfold sponge_circuit. eapply J_bind; [apply J_new|]. intros g Hg.
    eapply (J_run cl HC g [] [] [] [] _ duplex_new); [constructor|constructor|exact Hg|apply new_NR; exact FL|].
    intro h'. cbn [app]. destruct (native_run rescue_new h'); reflexivity.
  Qed.
End Generic.

Section Instances.
  Context {F : Field} {p v} (FL : FieldLaws F p v) (one : Var) (w : assignment F) (w_one : w one = fone).
  Let OL := fl_ops _ _ _ FL.
  Add Field Fg : (ffield OL).


  Definition rc_s (c : Combination F) (x : F) : Prop := comb_wf c /\ comb_val w c = x.
  Definition rn_s (n : Num F) (x : F) : Prop := n_val w n = x.
  Definition ra_s (n : AllocatedNum F) (x : F) : Prop := num_val w n = x.
  Definition rc_c (c : Combination F) (x : F) : Prop := comb_wf c /\ comb_ok w c /\ comb_val w c = x.
  Definition rn_c (n : Num F) (x : F) : Prop := n_ok w n /\ n_val w n = x.
  Definition ra_c (n : AllocatedNum F) (x : F) : Prop := num_ok w n /\ num_val w n = x.


  Lemma one_sound B (f : AllocatedNum F -> CS F B) (Q : B -> Prop) :
    (forall o, rn_s (n_from o) fone -> sound w (f o) Q) ->
    sound w (bind (namespace "TODO remove this" (num_alloc (Ok fone))) (fun o =>
       bind (enforce_zero (lc_sub_v (num_lc o) one)) (fun _ => f o))) Q.
  Proof.
    intro H. eapply sound_bind; [apply sound_namespace, num_alloc_sound|]. intros o _.
    apply sound_enforce_k. intro E. apply H. unfold rn_s. rewrite (n_from_val FL).
    unfold num_lc in E. rewrite (lc_val_sub_v OL), (lc_val_from OL), w_one in E. apply (proj1 (fsub_zero OL _ _)). exact E.
  Qed.
  Lemma out_sound B (f : AllocatedNum F -> CS F B) (Q : B -> Prop) c x : rc_s c x ->
    (forall o, ra_s o x -> rc_s (comb_from_num o) x -> sound w (f o) Q) ->
    sound w (bind (namespace "squeezed element" (num_alloc (ok_or_missing (comb_value c)))) (fun out =>
       bind (enforce_zero (lc_sub_lc (num_lc out) (comb_lc one c))) (fun _ => f out))) Q.
  Proof.
    intros [Hw Hc] H. eapply sound_bind; [apply sound_namespace, num_alloc_sound|]. intros o _.
    apply sound_enforce_k. intro E.
    assert (Ho : num_val w o = x).
    { unfold num_lc in E. rewrite (lc_val_sub_lc OL), (lc_val_from OL), (comb_lc_val FL one w w_one) in E. rewrite <- Hc. apply (proj1 (fsub_zero OL _ _)). exact E. }
    apply H; [exact Ho|]. split; [apply comb_from_num_wf|]. rewrite (comb_from_num_val FL). exact Ho.
  Qed.
  Lemma one_complete B (f : AllocatedNum F -> CS F B) (Q : B -> Prop) :
    (forall o, rn_c (n_from o) fone -> complete w (f o) Q) ->
    complete w (bind (namespace "TODO remove this" (num_alloc (Ok fone))) (fun o =>
       bind (enforce_zero (lc_sub_v (num_lc o) one)) (fun _ => f o))) Q.
  Proof.
    intro H. eapply complete_bind; [apply complete_namespace, (num_alloc_complete w _ fone eq_refl)|]. intros o [Ho Hv].
    cstep.
    - unfold num_lc. rewrite (lc_val_sub_v OL), (lc_val_from OL), w_one. unfold num_val in Hv. rewrite Hv. ring.
    - apply H. split; [apply (n_from_ok FL), Ho|]. rewrite (n_from_val FL). exact Hv.
  Qed.
  Lemma out_complete B (f : AllocatedNum F -> CS F B) (Q : B -> Prop) c x : rc_c c x ->
    (forall o, ra_c o x -> rc_c (comb_from_num o) x -> complete w (f o) Q) ->
    complete w (bind (namespace "squeezed element" (num_alloc (ok_or_missing (comb_value c)))) (fun out =>
       bind (enforce_zero (lc_sub_lc (num_lc out) (comb_lc one c))) (fun _ => f out))) Q.
  Proof.
    intros (Hw & Hk & Hc) H. eapply complete_bind.
    { apply complete_namespace, (num_alloc_complete w _ x). rewrite Hk, Hc. reflexivity. }
    intros o [Ho Hv]. cstep.
    - unfold num_lc. rewrite (lc_val_sub_lc OL), (lc_val_from OL), (comb_lc_val FL one w w_one), Hc. unfold num_val in Hv. rewrite Hv. ring.
    - apply H; [split; assumption|]. split; [apply comb_from_num_wf|].
      split; [apply (comb_from_num_ok FL), Ho|]. rewrite (comb_from_num_val FL). exact Hv.
  Qed.

  Definition Js := fun A (m : CS F A) (Q : A -> Prop) => sound w m Q.
  Definition Jc := fun A (m : CS F A) (Q : A -> Prop) => complete w m Q.

  Lemma complete_eq (m : CS F (Num F)) x : complete w m (fun o => n_ok w o) -> sound w m (fun o => n_val w o = x) ->
    complete w m (fun o => rn_c o x).
  Proof. intros H1 H2. apply complete_sound; assumption. Qed.
  Lemma RO_log log : forall h, Forall2 (RO rn_s) log h -> h = map (option_map (n_val w)) log.
  Proof.
    intros h H. induction H as [|a b log h Hab _ IH]; [reflexivity|]. cbn [map]. rewrite <- IH.
    destruct a, b; cbn [RO] in Hab; try contradiction; [|reflexivity]. unfold rn_s in Hab. cbn [option_map]. rewrite Hab. reflexivity.
  Qed.
  Lemma RA_outs outs : forall ys, Forall2 ra_s outs ys -> ys = map (num_val w) outs.
  Proof.
    intros ys H. induction H as [|a b outs ys Hab _ IH]; [reflexivity|]. cbn [map]. rewrite <- IH, <- Hab. reflexivity.
  Qed.

  Lemma sponge_sound cl : sound w (sponge_circuit one cl)
    (fun '(outs, log) => native_run rescue_new (map (option_map (n_val w)) log) = Some (map (num_val w) outs)).
  Proof.
    eapply sound_weaken.
    - apply (J_sponge_circuit FL one Js rc_s rn_s ra_s); unfold Js.
      + intros A a Q. apply sound_ret.
      + intros A B m f Q1 Q. apply sound_bind.
      + intros A s m Q. apply sound_namespace.
      + intros c x [Hw <-]. eapply comb_rescue_alpha_sound; eassumption.
      + intros c x [Hw <-]. eapply comb_rescue_invalpha_sound; eassumption.
      + intros c x [Hw <-]. eapply comb_evaluate_sound; eassumption.
      + intro x. reflexivity.
      + intros n x <-. split; [apply (comb_from_wf FL)|apply (comb_from_val FL)].
      + intros c x n y [Hw <-] <-. split; [apply (comb_add_n_wf FL), Hw|apply (comb_add_n_val FL)].
      + intros c x k n y [Hw <-] <-. split; [apply (comb_add_cn_wf FL), Hw|apply (comb_add_cn_val FL)].
      + apply one_sound.
      + apply out_sound.
      + apply Forall_forall. intros f _ outs _ tr [n|] _ _; [|exact I]. eexists. reflexivity.
    - intros [outs log] (h & ys & Hl & Ho & E). rewrite <- (RO_log _ _ Hl), <- (RA_outs _ _ Ho). exact E.
  Qed.

  Definition hint_ok (o : option (Num F)) : Prop := match o with Some n => n_ok w n | None => True end.
  Lemma sponge_complete cl :
    Forall (fun f => forall outs, Forall (num_ok w) outs -> complete w (f outs) hint_ok) cl ->
    complete w (sponge_circuit one cl)
      (fun '(outs, log) => Forall (num_ok w) outs /\
        native_run rescue_new (map (option_map (n_val w)) log) = Some (map (num_val w) outs)).
  Proof.
    intro HC. apply (complete_weaken w _ (fun o => Forall (num_ok w) (fst o) /\ (let '(outs, log) := o in
        native_run rescue_new (map (option_map (n_val w)) log) = Some (map (num_val w) outs)))); [|intros [? ?] H; exact H].
    apply complete_sound; [|apply sponge_sound].
    eapply complete_weaken.
    - apply (J_sponge_circuit FL one Jc rc_c rn_c ra_c); unfold Jc.
      + intros A a Q. apply complete_ret.
      + intros A B m f Q1 Q. apply complete_bind.
      + intros A s m Q. apply complete_namespace.
      + intros c x (Hw & Hk & <-). apply complete_eq; [eapply comb_rescue_alpha_complete|eapply comb_rescue_alpha_sound]; eassumption.
      + intros c x (Hw & Hk & <-). apply complete_eq; [eapply comb_rescue_invalpha_complete|eapply comb_rescue_invalpha_sound]; eassumption.
      + intros c x (Hw & Hk & <-). apply complete_eq; [eapply comb_evaluate_complete|eapply comb_evaluate_sound]; eassumption.
      + intro x. split; [apply n_constant_ok|reflexivity].
      + intros n x (Hk & <-). split; [apply (comb_from_wf FL)|]. split; [apply (comb_from_ok FL), Hk|apply (comb_from_val FL)].
      + intros c x n y (Hw & Hk & <-) (Hn & <-). split; [apply (comb_add_n_wf FL), Hw|].
        split; [apply (comb_add_n_ok FL); assumption|apply (comb_add_n_val FL)].
      + intros c x k n y (Hw & Hk & <-) (Hn & <-). split; [apply (comb_add_cn_wf FL), Hw|].
        split; [apply (comb_add_cn_ok FL); assumption|apply (comb_add_cn_val FL)].
      + apply one_complete.
      + apply out_complete.
      + eapply Forall_impl; [|exact HC]. intros f Hf outs Ho. eapply complete_weaken; [apply Hf|].
        * eapply Forall_impl; [|exact Ho]. intros y (x & Hy & _). exact Hy.
        * intros [n|] Hn; [|exact I]. exists (n_val w n). split; [exact Hn|reflexivity].
    - intros [outs log] (h & ys & Hl & Ho & E). cbn [fst]. clear - Ho. induction Ho as [|a b outs ys [H _] _ IH]; constructor; assumption.
  Qed.
End Instances.
