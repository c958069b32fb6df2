(** The gadgets of recursion.rs make the same calls whatever the values are. *)
From Coq Require Import String List Bool Arith ZArith Lia.
From Verif Require Import Model.FieldTrait Model.Circuits Model.Num Model.Boolean Model.Curve Model.Util Model.Rescue Model.RescueGadget Model.Ecc Model.Params
  Model.Opening Model.Proofs Model.Recursion
  Spec.FieldLaws Spec.CircuitSpec Spec.CurveSpec Spec.CheatSpec Spec.CurveLaws Spec.EccSpec Spec.VerifySpec Spec.RecursiveCircuitSpec Spec.UniformSpec
  Proofs.UnpackP Proofs.EccMulP Proofs.CurveTop Proofs.AlikeP Proofs.AlikeGadgetsP Proofs.AlikeEccP.
Import ListNotations.
Open Scope list_scope. Open Scope nat_scope.
Notation length := List.length.

Lemma Forall2_firstn {A B} (R : A -> B -> Prop) n l l' : Forall2 R l l' -> Forall2 R (firstn n l) (firstn n l').
Proof. intro H. revert n. induction H; intros [|n]; cbn [firstn]; constructor; auto. Qed.
Lemma Forall2_skipn {A B} (R : A -> B -> Prop) n l l' : Forall2 R l l' -> Forall2 R (skipn n l) (skipn n l').
Proof. intro H. revert n. induction H; intros [|n]; cbn [skipn]; auto; constructor; auto. Qed.
Lemma Forall2_true {A B} (l : list A) (l' : list B) : length l = length l' -> Forall2 (fun _ _ => True) l l'.
Proof. revert l'. induction l; intros [|b l'] E; try discriminate E; constructor; [exact I|]. apply IHl. injection E as E. exact E. Qed.
Lemma Forall2_combine {A B A' B'} (R : A -> A' -> Prop) (S : B -> B' -> Prop) l l' m m' : Forall2 R l l' -> Forall2 S m m' ->
  Forall2 (fun p p' => R (fst p) (fst p') /\ S (snd p) (snd p')) (combine l m) (combine l' m').
Proof. intro H. revert m m'. induction H; intros m m' Hm; [constructor|]. destruct Hm; cbn [combine]; constructor; auto. Qed.
Lemma Forall2_enumerate {A B} (R : A -> B -> Prop) l l' : Forall2 R l l' ->
  Forall2 (fun p p' => fst p = fst p' /\ fst p < length l /\ R (snd p) (snd p')) (enumerate l) (enumerate l').
Proof.
  intro H. unfold enumerate. rewrite <- (Forall2_length _ _ _ H).
  assert (X : forall n m, n + length l <= m -> Forall2 (fun p p' => fst p = fst p' /\ fst p < m /\ R (snd p) (snd p')) (combine (seq n (length l)) l) (combine (seq n (length l)) l')).
  { induction H as [|a b l l' Hab H IH]; intros n m Hm; [constructor|]. cbn [length seq combine] in *. constructor; [split; [reflexivity|]; split; [cbn [fst]; lia|exact Hab]|]. apply IH. lia. }
  apply X. lia.
Qed.

Ltac cs1L L := match goal with Hm : Forall2 _ ?b _ |- alike _ _ _ (bind (cut_scalar _ _ ?b) _) _ =>
        apply L; [exact Hm|]; clear Hm; let n := fresh "n" in let n' := fresh "n'" in let m := fresh "m" in let m' := fresh "m'" in let Hn := fresh "Hn" in let Hm := fresh "Hm" in
        intros n n' m m' Hn Hm; cbv beta iota end.
Ltac cc1L L := match goal with Hm : Forall2 _ ?b _ |- alike _ _ _ (bind (cut_challenges _ _ ?b) _) _ =>
        eapply alike_bind; [apply L, Hm|]; clear Hm; let n := fresh "n" in let n' := fresh "n'" in let m := fresh "m" in let m' := fresh "m'" in let Hn := fresh "Hn" in let Hm := fresh "Hm" in
        intros [n m] [n' m'] [Hn Hm]; cbn [fst snd] in Hn, Hm; cbv beta iota end.

Lemma alike_mapM_len {F : Field} inp V {A A' B B'} (RA : A -> A' -> Prop) (RB : B -> B' -> Prop) (f : A -> CS F B) (g : A' -> CS F B') xs ys :
  (forall x y, RA x y -> alike inp V RB (f x) (g y)) -> Forall2 RA xs ys -> alike inp V (fun bs bs' => Forall2 RB bs bs' /\ length bs = length xs) (mapM f xs) (mapM g ys).
Proof.
  intros H H2. induction H2; cbn [mapM]; [apply alike_ret; split; [constructor|reflexivity]|].
  eapply alike_bind; [apply H; eassumption|]. intros b b' Hb. eapply alike_bind; [exact IHForall2|]. intros c c' [Hc Ec].
  apply alike_ret. split; [constructor; assumption|]. cbn [length]. congruence.
Qed.

Lemma alike_inp {F : Field} (i i' : Prop) V {A B} (R : A -> B -> Prop) (p : CS F A) (q : CS F B) : (i -> i') -> alike i V R p q -> alike i' V R p q.
Proof.
  intros Hi H. induction H; [apply al_ret; auto|apply al_fails; assumption|apply al_panic|apply al_alloc; auto|apply al_input; auto|apply al_lc; auto|
    apply al_mul; auto|apply al_push; auto|apply al_pop; auto].
Qed.

Section Helpers.
  Context {F : Field}.
  Variables (inp : Prop) (V : Var -> Prop) (one : Var).
  Hypothesis V1 : V one.
  Hypothesis H256 : forall x : F, length (fe_bits x) = 256.
  Local Notation alike := (@alike F inp V _ _).
  Local Notation Rnum := (@Rnum F V). Local Notation RNum := (@RNum F V). Local Notation Rcomb := (@Rcomb F V).
  Local Notation Rbit := (same_bit V).
  Local Notation Rgad := (@Rgad F V).
  Notation T := (fun _ _ => True).

  Lemma A_bits_atb {A B} (R : A -> B -> Prop) bs bs' from len f g : Forall2 Rbit bs bs' ->
    (forall l l', Forall2 Rbit l l' -> length l = len -> alike R (f l) (g l')) -> alike R (bind (bits_at bs from len) f) (bind (bits_at bs' from len) g).
  Proof.
    intros H H1. unfold bits_at. rewrite <- (Forall2_length _ _ _ H). destruct (from + len <=? length bs) eqn:E; [|apply al_panic].
    apply Nat.leb_le in E. apply (H1 (firstn len (skipn from bs)) (firstn len (skipn from bs'))); [apply Forall2_firstn, Forall2_skipn, H|].
    rewrite firstn_length, skipn_length. lia.
  Qed.
  Lemma A_num_equal b b' l l' m m' : Rbit b b' -> Rcomb l l' -> Rcomb m m' -> alike T (num_equal_unless_base_case one b l m) (num_equal_unless_base_case one b' l' m').
  Proof. intros. unfold num_equal_unless_base_case. repeat astep. exact I. Qed.
  Lemma R_pack bs bs' : Forall2 Rbit bs bs' -> forall c c' k, Rcomb c c' -> Rcomb (pack_bits c k bs) (pack_bits c' k bs').
  Proof. intro H. induction H; intros c c' k Hc; cbn [pack_bits]; [exact Hc|]. apply IHForall2. rel. Qed.
  Lemma A_chunks b b' : Rbit b b' -> forall fuel l l' m m', Forall2 Rbit l l' -> Forall2 Rbit m m' -> alike T (equal_chunks one fuel b l m) (equal_chunks one fuel b' l' m').
  Proof.
    intro Hb. induction fuel as [|fuel IH]; intros l l' m m' Hl Hm; cbn [equal_chunks]; [astep; exact I|].
    pose proof (Forall2_length _ _ _ Hl) as EL. pose proof (Forall2_length _ _ _ Hm) as EM.
    destruct Hl as [|x x' l l' Hx Hl]; [astep; exact I|]. rewrite <- EL, <- EM. cbv zeta.
    eapply alike_nsb; [apply A_num_equal; [exact Hb|apply R_pack; [apply Forall2_firstn; constructor; assumption|rel]|apply R_pack; [apply Forall2_firstn, Hm|rel]]|].
    intros _ _ _. apply IH; apply Forall2_skipn; [constructor; assumption|exact Hm].
  Qed.
  Lemma A_equal_unless b b' l l' m m' : Rbit b b' -> Forall2 Rbit l l' -> Forall2 Rbit m m' -> alike T (equal_unless_base_case one b l m) (equal_unless_base_case one b' l' m').
  Proof.
    intros Hb Hl Hm. unfold equal_unless_base_case. rewrite <- (Forall2_length _ _ _ Hl), <- (Forall2_length _ _ _ Hm). astep; [auto|]. apply A_chunks; assumption.
  Qed.
  Lemma A_obtain bs bs' : Forall2 Rbit bs bs' -> alike Rnum (obtain_scalar_from_bits bs) (obtain_scalar_from_bits bs').
  Proof. intros. unfold obtain_scalar_from_bits. repeat astep. rel. Qed.
  Lemma A_alloc_bits (l l' : list bool) : length l = length l' ->
    alike (fun bs bs' => Forall2 Rbit bs bs' /\ Forall (fun b => bit_value b = None) bs' /\ length bs' = length l')
      (mapM (fun b => namespace "bit" (bit_alloc (Ok b))) l) (mapM (fun b => namespace "bit" (bit_alloc (Ok b))) l').
  Proof.
    revert l'. induction l as [|b l IH]; intros [|b' l'] E; try discriminate E; cbn [mapM]; [astep; split; [constructor|]; split; [constructor|reflexivity]|].
    eapply alike_bind; [apply alike_ns, A_bit_alloc|]. intros x x' [Hx Ex]. eapply alike_bind; [apply IH; injection E as E; exact E|]. intros xs xs' (H1 & H2 & H3).
    astep. split; [constructor; assumption|]. split; [constructor; assumption|]. cbn [length]. congruence.
  Qed.
  Lemma A_input_bits (Hi : inp) (l l' : list bool) : length l = length l' ->
    alike (fun bs bs' => Forall2 Rbit bs bs' /\ map bit_value bs' = map Some l')
      (mapM (fun b => namespace "bit" (bit_alloc_input_unchecked (Ok b))) l) (mapM (fun b => namespace "bit" (bit_alloc_input_unchecked (Ok b))) l').
  Proof.
    revert l'. induction l as [|b l IH]; intros [|b' l'] E; try discriminate E; cbn [mapM]; [astep; split; [constructor|reflexivity]|].
    eapply (alike_nsb _ _ (fun x x' => Rbit x x' /\ bit_value x' = Some b')); [unfold bit_alloc_input_unchecked; apply alike_inputb; [exact Hi|]; intros x st Hx; astep; split; [rel|reflexivity]|].
    intros x x' [Hx Ex]. eapply alike_bind; [apply IH; injection E as E; exact E|]. intros xs xs' (H1 & H2).
    astep. split; [constructor; assumption|]. cbn [map]. congruence.
  Qed.
  Lemma nth_rbit bs bs' i d d' : Forall2 Rbit bs bs' -> Rbit d d' -> Rbit (nth i bs d) (nth i bs' d').
  Proof. intros H Hd. revert i. induction H; intros [|i]; cbn [nth]; auto. Qed.
  Lemma A_challenge_step bs bs' a a' i : Forall2 Rbit bs bs' -> Rcomb a a' -> alike Rcomb (challenge_step one bs a i) (challenge_step one bs' a' i).
  Proof.
    intros Hb Ha. unfold challenge_step.
    assert (HN : Rbit (mkBit None one) (mkBit None one)) by (split; [reflexivity|exact V1]).
    pose proof (nth_rbit _ _ (i * 2) _ _ Hb HN) as H1. pose proof (nth_rbit _ _ (i * 2 + 1) _ _ Hb HN) as H2.
    cbv zeta. set (b1 := nth (i * 2) bs _) in *. set (b1' := nth (i * 2) bs' _) in *. set (b2 := nth (i * 2 + 1) bs _) in *. set (b2' := nth (i * 2 + 1) bs' _) in *.
    assert (H1one : Rnum (num_one one) (num_one one)) by (split; [reflexivity|exact V1]).
    repeat astep. rel.
  Qed.
  Lemma A_challenge_scalar bs bs' : Forall2 Rbit bs bs' -> alike Rnum (g_get_challenge_scalar one bs) (g_get_challenge_scalar one bs').
  Proof.
    intro Hb. unfold g_get_challenge_scalar. rewrite <- (Forall2_length _ _ _ Hb). astep; [auto|].
    eapply alike_bind; [eapply (alike_fold1 _ _ Rcomb); [|rel]; intros; apply A_challenge_step; assumption|]. intros a a' Ha. repeat astep. rel.
  Qed.
  Lemma A_get_challenge t t' : Rgad t t' -> alike (fun r r' => Forall2 Rbit (fst r) (fst r') /\ Rgad (snd r) (snd r')) (g_get_challenge one t) (g_get_challenge one t').
  Proof.
    intro Ht. unfold g_get_challenge. eapply alike_nsb; [apply A_squeeze; assumption|]. intros [n t1] [n' t1'] [Hn Ht1]. cbn [fst snd] in *. cbv beta iota.
    eapply alike_nsb; [apply A_unpack; [exact V1|rel|exact H256]|]. intros l l' [Hl _]. astep. cbn [fst snd]. split; [|exact Ht1].
    apply Forall2_app; [apply Forall2_firstn, Hl|]. constructor; [rel|constructor].
  Qed.
  Lemma A_compute_b_rev cs cs' : Forall2 Rnum cs cs' -> forall is is' x x', Forall2 Rnum is is' -> Rnum x x' -> alike Rcomb (g_compute_b_rev one x cs is) (g_compute_b_rev one x' cs' is').
  Proof.
    intro H. induction H as [|c c' cs cs' Hc H IH]; intros is is' x x' Hi Hx; [apply al_panic|].
    destruct Hi as [|i i' is is' Hii Hi]; [destruct cs; apply al_panic|].
    assert (HS : forall f f' g g', (forall is is' x x', Forall2 Rnum is is' -> Rnum x x' -> alike Rcomb (f x is) (f' x' is')) ->
      g = (tmp <- namespace "x * challenges[-1]" (num_mul x c) ;;
        let tmp := comb_add_num (comb_from_num i) tmp in
        x2 <- namespace "x^2" (num_mul x x) ;;
        rest <- namespace "b layer" (f x2 is) ;;
        b <- comb_mul one rest tmp ;; ret (comb_from_num b))%cs ->
      g' = (tmp <- namespace "x * challenges[-1]" (num_mul x' c') ;;
        let tmp := comb_add_num (comb_from_num i') tmp in
        x2 <- namespace "x^2" (num_mul x' x') ;;
        rest <- namespace "b layer" (f' x2 is') ;;
        b <- comb_mul one rest tmp ;; ret (comb_from_num b))%cs -> alike Rcomb g g').
    { intros f f' g g' Hf -> ->. eapply alike_nsb; [apply A_num_mul; assumption|]. intros t t' Ht. cbv zeta.
      eapply alike_nsb; [apply A_num_mul; assumption|]. intros u u' Hu. eapply alike_nsb; [apply Hf; assumption|]. intros s s' Hs.
      eapply alike_bind; [apply A_comb_mul; [exact V1|exact Hs|rel]|]. intros b b' Hb. astep. rel. }
    destruct H as [|c2 c2' cs cs' Hc2 H]; destruct Hi as [|i2 i2' is is' Hi2 Hi].
    - cbn [g_compute_b_rev]. eapply alike_nsb; [apply A_num_mul; assumption|]. intros t t' Ht. astep. rel.
    - eapply (HS (fun x l => g_compute_b_rev one x _ l) (fun x l => g_compute_b_rev one x _ l)); [|reflexivity|reflexivity]. intros. apply IH; assumption.
    - eapply (HS (fun x l => g_compute_b_rev one x _ l) (fun x l => g_compute_b_rev one x _ l)); [|reflexivity|reflexivity]. intros. apply IH; assumption.
    - eapply (HS (fun x l => g_compute_b_rev one x _ l) (fun x l => g_compute_b_rev one x _ l)); [|reflexivity|reflexivity]. intros. apply IH; assumption.
  Qed.
  Lemma A_compute_b x x' cs cs' is is' : Rnum x x' -> Forall2 Rnum cs cs' -> Forall2 Rnum is is' -> alike Rcomb (g_compute_b one x cs is) (g_compute_b one x' cs' is').
  Proof.
    intros Hx Hc Hi. unfold g_compute_b. rewrite <- (Forall2_length _ _ _ Hc), <- (Forall2_length _ _ _ Hi). astep; [auto|]. astep; [auto|].
    apply A_compute_b_rev; [apply EccMulP.Forall2_rev, Hc|apply EccMulP.Forall2_rev, Hi|exact Hx].
  Qed.
  Lemma A_compute_thing x x' k : Rnum x x' -> alike Rcomb (g_compute_thing one x k) (g_compute_thing one x' k).
  Proof.
    intro Hx. unfold g_compute_thing. eapply (alike_bind _ _ (fun r r' => Rcomb (fst r) (fst r') /\ Rnum (snd r) (snd r'))).
    - apply alike_fold1; [|split; [cbn [fst]; rel|exact Hx]]. intros [a c] [a' c'] n _ [Ha Hc]. cbn [fst snd] in *. cbv beta iota.
      eapply alike_nsb; [apply A_comb_mul; [exact V1|exact Ha|rel]|]. intros t t' Ht. eapply alike_nsb; [apply A_num_mul; exact Hc|]. intros u u' Hu.
      astep. cbn [fst snd]. split; [rel|exact Hu].
    - intros [a c] [a' c'] [Ha _]. cbv beta iota. astep. exact Ha.
  Qed.
  Lemma A_square_times x x' n : Rnum x x' -> alike Rnum (square_times x n) (square_times x' n).
  Proof. intro Hx. unfold square_times. apply alike_fold1; [|exact Hx]. intros a a' _ _ Ha. apply alike_ns, A_num_mul; assumption. Qed.
  Lemma A_cutb {A B} (R : A -> B -> Prop) len bs bs' f g : Forall2 Rbit bs bs' ->
    (forall l l' m m', Forall2 Rbit l l' -> Forall2 Rbit m m' -> alike R (f (l, m)) (g (l', m'))) -> alike R (bind (cut len bs) f) (bind (cut len bs') g).
  Proof.
    intros H H1. unfold cut. rewrite <- (Forall2_length _ _ _ H). destruct (len <=? length bs); [|apply al_panic].
    apply (H1 (firstn len bs) (firstn len bs') (skipn len bs) (skipn len bs')); [apply Forall2_firstn, H|apply Forall2_skipn, H].
  Qed.
  Lemma A_cut_scalarb {A B} (R : A -> B -> Prop) s s' len bs bs' f g : Forall2 Rbit bs bs' ->
    (forall n n' m m', Rnum n n' -> Forall2 Rbit m m' -> alike R (f (n, m)) (g (n', m'))) -> alike R (bind (cut_scalar s len bs) f) (bind (cut_scalar s' len bs') g).
  Proof.
    intros H H1. eapply (alike_bind _ _ (fun r r' => Rnum (fst r) (fst r') /\ Forall2 Rbit (snd r) (snd r'))).
    - unfold cut_scalar. apply A_cutb; [exact H|]. intros l l' m m' Hl Hm. cbv beta iota. eapply alike_nsb; [apply A_obtain, Hl|]. intros n n' Hn. astep. split; assumption.
    - intros [n m] [n' m'] [Hn Hm]. apply H1; assumption.
  Qed.
  Lemma A_cut_challenges k : forall bs bs', Forall2 Rbit bs bs' ->
    alike (fun r r' => Forall2 Rnum (fst r) (fst r') /\ Forall2 Rbit (snd r) (snd r')) (cut_challenges one k bs) (cut_challenges one k bs').
  Proof.
    induction k as [|k IH]; intros bs bs' H; cbn [cut_challenges]; [astep; split; [constructor|exact H]|].
    apply A_cutb; [exact H|]. intros l l' m m' Hl Hm. cbv beta iota. eapply alike_nsb; [apply A_challenge_scalar, Hl|]. intros n n' Hn.
    eapply alike_bind; [apply IH, Hm|]. intros [ns b] [ns' b'] [Hns Hb]. cbn [fst snd] in *. cbv beta iota. astep. cbn [fst snd]. split; [constructor; assumption|exact Hb].
  Qed.
  Record Rdef (d d' : GDeferred F) : Prop := mkRdef {
    rd_x : Rnum (gd_x d) (gd_x d'); rd_y_old : Rnum (gd_y_old d) (gd_y_old d'); rd_y_cur : Rnum (gd_y_cur d) (gd_y_cur d'); rd_y_new : Rnum (gd_y_new d) (gd_y_new d');
    rd_ky : Rnum (gd_ky d) (gd_ky d'); rd_txp : Rnum (gd_tx_positive d) (gd_tx_positive d'); rd_txn : Rnum (gd_tx_negative d) (gd_tx_negative d');
    rd_sx : Rnum (gd_sx_cur d) (gd_sx_cur d'); rd_rx : Rnum (gd_rx d) (gd_rx d'); rd_rxy : Rnum (gd_rxy d) (gd_rxy d');
    rd_old : Forall2 Rnum (gd_sq_old d) (gd_sq_old d'); rd_gx : Rnum (gd_gx_old d) (gd_gx_old d'); rd_new : Forall2 Rnum (gd_sq_new d) (gd_sq_new d');
    rd_bx : Rnum (gd_b_x d) (gd_b_x d'); rd_bxy : Rnum (gd_b_xy d) (gd_b_xy d'); rd_byo : Rnum (gd_b_y_old d) (gd_b_y_old d');
    rd_byc : Rnum (gd_b_y_cur d) (gd_b_y_cur d'); rd_byn : Rnum (gd_b_y_new d) (gd_b_y_new d') }.
  Lemma A_unpack_deferred k bs bs' : Forall2 Rbit bs bs' -> alike Rdef (unpack_deferred one k bs) (unpack_deferred one k bs').
  Proof.
    intro H. unfold unpack_deferred.
    repeat first [cs1L (@A_cut_scalarb)|cc1L (@A_cut_challenges)].
    match goal with Hm : Forall2 (same_bit V) ?b _ |- _ => rewrite <- (Forall2_length _ _ _ Hm) end. astep; [auto|]. astep. constructor; assumption.
  Qed.
  Ltac mulstep := first
    [ eapply alike_nsb; [apply A_num_mul; assumption|]; intros ? ? ?
    | eapply alike_nsb; [apply A_num_invert; assumption|]; intros ? ? ?
    | eapply alike_bind; [apply A_square_times; assumption|]; intros ? ? ?
    | eapply alike_nsb; [apply A_compute_thing; assumption|]; intros ? ? ?
    | eapply alike_nsb; [apply A_comb_mul; [exact V1|solve [rel]|solve [rel]]|]; intros ? ? ?
    | astep ].
  Lemma A_check_circuit k d d' : Rdef d d' -> alike Rnum (check_circuit one k d) (check_circuit one k d').
  Proof.
    intros []. unfold check_circuit. cbv zeta. do 5 mulstep. destruct (usize_sub k 2) as [nk|]; [|apply al_panic].
    change (bind (unwrap (Some nk)) ?f) with (f nk). cbv beta. repeat mulstep. assumption.
  Qed.
  Lemma A_roots sq sq' : Forall2 Rnum sq sq' -> alike (fun r r' => Forall2 Rnum (fst r) (fst r') /\ Forall2 Rnum (snd r) (snd r')) (roots_and_inverses one sq) (roots_and_inverses one sq').
  Proof.
    intro H. unfold roots_and_inverses. eapply alike_bind; [eapply (alike_mapM _ _ Rnum Rnum); [|exact H]; intros; apply alike_ns, A_num_sqrt; assumption|]. intros c c' Hc.
    eapply alike_bind; [eapply (alike_mapM _ _ Rnum Rnum); [|exact Hc]; intros; apply alike_ns, A_num_invert; assumption|]. intros i i' Hi. astep. split; assumption.
  Qed.
  Lemma A_verify_deferred k bs bs' : Forall2 Rbit bs bs' -> alike T (verify_deferred one k bs) (verify_deferred one k bs').
  Proof.
    intro H. unfold verify_deferred. eapply alike_bind; [apply A_unpack_deferred, H|]. intros d d' Hd. eapply alike_bind; [apply A_check_circuit, Hd|]. intros xy xy' Hxy. destruct Hd.
    eapply alike_bind; [apply A_roots; eassumption|]. intros [o oi] [o' oi'] [Ho Hoi]. cbn [fst snd] in *. cbv beta iota.
    eapply alike_nsb; [apply A_compute_b; assumption|]. intros e e' He. unfold enforce_value. astep.
    eapply alike_bind; [apply A_roots; eassumption|]. intros [n ni] [n' ni'] [Hn Hni]. cbn [fst snd] in *. cbv beta iota.
    do 5 (eapply alike_nsb; [apply A_compute_b; assumption|]; intros ? ? ?). repeat astep. exact I.
  Qed.
End Helpers.

Section Circuit.
  Context {C : Curve} {q vb r vs} (CL : CurveLaws C q vb r vs).
  Notation F := (Base C).
  Variables (inp : Prop) (V : Var -> Prop) (one : Var).
  Hypothesis V1 : V one.
  Let H256 : forall x : F, length (fe_bits x) = 256 := fun x => proj1 (fe_bits_val (cl_base _ _ _ _ _ CL) x).
  Let H256s : forall x : Scalar C, length (fe_bits x) = 256 := fun x => proj1 (fe_bits_val (cl_scalar _ _ _ _ _ CL) x).
  Local Notation alike := (@alike F inp V _ _).
  Local Notation Rnum := (@Rnum F V). Local Notation RNum := (@RNum F V). Local Notation Rcomb := (@Rcomb F V).
  Local Notation Rbit := (same_bit V).
  Local Notation Rgad := (@Rgad F V).
  Local Notation Rpoint := (@Rpoint C V).
  Local Notation Rbits := (Forall2 Rbit).
  Notation T := (fun _ _ => True).
  Definition Rwit (P Q : CurvePoint C) : Prop := Rpoint P Q /\ bool_value (cp_id Q) = None.

  (** what the second circuit's old proof must be like *)
  Definition sound_old (k : nat) (o : option (OldProof C)) : Prop :=
    match o with None => True | Some p => proof_of_points k (op_proof p) (op_oldproof1 p) end.

  Lemma A_commit_point t t' P P' : Rgad t t' -> Rpoint P P' -> alike Rgad (commit_point one t P) (commit_point one t' P').
  Proof.
    intros Ht [HX HY _ _]. unfold commit_point. eapply alike_nsb; [apply A_absorb; eassumption|]. intros u u' Hu. apply alike_ns. apply A_absorb; assumption.
  Qed.
  Variables (self self' : VerificationCircuit C) (k : nat).
  Hypothesis HK : p_k (vc_params self) = k.
  Hypothesis HK' : p_k (vc_params self') = k.
  Hypothesis HS : sound_old k (vc_proof self').
  Hypothesis HF : match vc_forkvalues self' with None => True | Some fs => k <= length fs end.

  Lemma A_witness_of s s' f : (forall p, proof_of_points k (op_proof p) (op_oldproof1 p) -> valid (f p)) ->
    alike Rwit (witness_of one self s f) (witness_of one self' s' f).
  Proof.
    intro H. unfold witness_of. apply alike_ns. apply (A_witness CL); [exact V1|]. intros c E. injection E as <-.
    unfold sound_old in HS. destruct (vc_proof self') as [p|]; [apply H, HS|]. apply (rep_valid CL _ _ (rep0 CL)).
  Qed.
  Lemma A_witness_at s s' f : (forall p, proof_of_points k (op_proof p) (op_oldproof1 p) -> exists c, f p = Some c /\ valid c) ->
    alike Rwit (witness_at one self s f) (witness_at one self' s' f).
  Proof.
    intro H. unfold witness_at.
    assert (E : exists c, match vc_proof self' with Some p => f p | None => Some c_zero end = Some c /\ valid c).
    { unfold sound_old in HS. destruct (vc_proof self') as [p|]; [apply H, HS|]. exists c_zero. split; [reflexivity|]. apply (rep_valid CL _ _ (rep0 CL)). }
    destruct E as (c & E & Hc). rewrite E. destruct (match vc_proof self with Some p => f p | None => Some c_zero end) as [c1|]; [|apply al_panic].
    change (bind (unwrap (Some ?a)) ?g) with (g a). cbv beta. apply alike_ns. apply (A_witness CL); [exact V1|]. intros c' E'. injection E' as <-. exact Hc.
  Qed.
  Lemma A_point_equal s s' b b' P P' bs bs' from : Rbit b b' -> Rpoint P P' -> Rbits bs bs' ->
    alike T (point_equal_unless one s b P bs from) (point_equal_unless one s' b' P' bs' from).
  Proof.
    intros Hb [HX HY _ _] Hbs. unfold point_equal_unless. apply alike_ns.
    eapply alike_nsb; [apply A_unpack; [exact V1|exact HX|exact H256]|]. intros x x' [Hx _].
    eapply alike_nsb; [apply A_unpack; [exact V1|exact HY|exact H256]|]. intros y y' [Hy _].
    apply A_bits_atb; [exact Hbs|]. intros l l' Hl _. eapply alike_nsb; [apply A_equal_unless; assumption|]. intros _ _ _.
    apply A_bits_atb; [exact Hbs|]. intros m m' Hm _. apply alike_ns. apply A_equal_unless; assumption.
  Qed.
  Lemma A_endo_chain z z' P P' Ps Ps' : Rbits z z' -> Rpoint P P' -> Forall2 Rpoint Ps Ps' -> alike Rpoint (endo_chain one z P Ps) (endo_chain one z' P' Ps').
  Proof.
    intros Hz HP HPs. unfold endo_chain. eapply alike_foldM; [|exact HPs|exact HP]. intros a a' x y Ha Hx.
    eapply alike_nsb; [apply (A_multiply_endo); [exact V1|exact (Rp_0 _ _ _ Ha)|exact Hz]|]. intros m m' [Hm _].
    apply alike_ns. eapply alike_weaken; [apply (A_add CL); eassumption|]. intros ? ? [H _]. exact H.
  Qed.
  Lemma A_endo_chain_with sums sums' z z' P P' Ps Ps' : Forall (fun sum => forall c1 c2 : C, valid c1 -> valid c2 -> valid (sum c1 c2)) sums' ->
    Rbits z z' -> Rpoint P P' -> Forall2 Rpoint Ps Ps' -> alike Rpoint (endo_chain_with one sums z P Ps) (endo_chain_with one sums' z' P' Ps').
  Proof.
    intros HSm Hz HP HPs. revert sums sums' HSm P P' HP. induction HPs as [|Q Q' Ps Ps' HQ _ IH]; intros sums sums' HSm P P' HP; cbn [endo_chain_with]; [apply alike_ret, HP|].
    eapply (alike_bind _ _ Rpoint).
    - eapply alike_nsb; [apply (A_multiply_endo); [exact V1|exact (Rp_0 _ _ _ HP)|exact Hz]|]. intros m m' [Hm _].
      apply alike_ns. eapply alike_weaken; [apply (A_add_with CL); [eassumption|eassumption|eassumption|]|intros ? ? [H _]; exact H].
      destruct HSm as [|sum sums0 H _]; [exact (valid_add CL)|exact H].
    - intros R R' HR. apply IH; [|exact HR]. destruct HSm; [constructor|assumption].
  Qed.
  Lemma A_g_constantb {A B} (R : A -> B -> Prop) f g : (forall P P', Rpoint P P' -> alike R (f P) (g P')) -> alike R (bind g_constant f) (bind g_constant g).
  Proof.
    intro H. unfold g_constant. pose proof (cl_rep_one _ _ _ _ _ CL) as H1. pose proof (cl_get_xy _ _ _ _ _ CL _ _ H1) as E. rewrite E.
    pose proof (rep_on_curve _ _ H1) as HO. destruct (cl_point _ _ _ _ _ CL (cl_gen _ _ _ _ _ CL)) as [[x y]|]; [|apply al_panic].
    apply (H (cp_constant x y) (cp_constant x y)). apply R_const, HO.
  Qed.
  Definition Rmsg (m m' : CurvePoint C * CurvePoint C * CurvePoint C * CurvePoint C) : Prop :=
    let '(L, R, l, r) := m in let '(L', R', l', r') := m' in Rwit L L' /\ Rwit R R' /\ Rwit l l' /\ Rwit r r'.
  Lemma A_ip_message i t t' j : i < k -> j < 5 -> Rgad t t' ->
    alike (fun r r' => Rmsg (fst r) (fst r') /\ Rgad (snd r) (snd r')) (ip_message one self i t j) (ip_message one self' i t' j).
  Proof.
    intros Hi Hj Ht. unfold ip_message. cbv zeta.
    assert (HR : forall p : OldProof C, proof_of_points k (op_proof p) (op_oldproof1 p) -> exists rd, nth_error (mo_rounds (pf_inner_product (op_proof p))) i = Some rd /\
      exists L R l r, nth_error (ip_L rd) j = Some L /\ valid L /\ nth_error (ip_R rd) j = Some R /\ valid R /\ nth_error (ip_l rd) j = Some l /\ nth_error (ip_r rd) j = Some r).
    { intros p (_ & _ & HL & _ & _ & HR). destruct (nth_error (mo_rounds (pf_inner_product (op_proof p))) i) as [rd|] eqn:E; [|apply nth_error_None in E; lia].
      exists rd. split; [reflexivity|]. rewrite Forall_forall in HR. destruct (HR rd (nth_error_In _ _ E)) as (l1 & l2 & l3 & l4 & v1 & v2). rewrite Forall_forall in v1, v2.
      destruct (nth_error (ip_L rd) j) as [L|] eqn:E1; [|apply nth_error_None in E1; lia]. destruct (nth_error (ip_R rd) j) as [R|] eqn:E2; [|apply nth_error_None in E2; lia].
      destruct (nth_error (ip_l rd) j) as [l|] eqn:E3; [|apply nth_error_None in E3; lia]. destruct (nth_error (ip_r rd) j) as [rr|] eqn:E4; [|apply nth_error_None in E4; lia].
      exists L, R, l, rr. repeat split; [exact (v1 _ (nth_error_In _ _ E1))|exact (v2 _ (nth_error_In _ _ E2))]. }
    assert (HV : forall s, valid (c_mul (c_one : C) s)) by (intro s0; exact (rep_valid CL _ _ (rep_mul CL _ _ _ (cl_rep_one _ _ _ _ _ CL)))).
    eapply alike_bind; [apply A_witness_at; intros p Hp; destruct (HR p Hp) as (rd & E & L & R & l & rr & E1 & v1 & E2 & v2 & E3 & E4); rewrite E; cbn [obind]; rewrite E1; eauto|]. intros L L' HL.
    eapply alike_bind; [apply A_witness_at; intros p Hp; destruct (HR p Hp) as (rd & E & L0 & R & l & rr & E1 & v1 & E2 & v2 & E3 & E4); rewrite E; cbn [obind]; rewrite E2; eauto|]. intros R R' HR'.
    eapply alike_bind; [apply A_witness_at; intros p Hp; destruct (HR p Hp) as (rd & E & L0 & R0 & l & rr & E1 & v1 & E2 & v2 & E3 & E4); rewrite E; cbn [obind]; rewrite E3; cbn [option_map]; eauto|]. intros l l' Hl.
    eapply alike_bind; [apply A_witness_at; intros p Hp; destruct (HR p Hp) as (rd & E & L0 & R0 & l0 & rr & E1 & v1 & E2 & v2 & E3 & E4); rewrite E; cbn [obind]; rewrite E4; cbn [option_map]; eauto|]. intros rr rr' Hr.
    eapply alike_nsb; [apply A_commit_point; [exact Ht|exact (proj1 HL)]|]. intros t1 t1' H1.
    eapply alike_nsb; [apply A_commit_point; [exact H1|exact (proj1 HR')]|]. intros t2 t2' H2.
    eapply alike_nsb; [apply A_commit_point; [exact H2|exact (proj1 Hl)]|]. intros t3 t3' H3.
    eapply alike_nsb; [apply A_commit_point; [exact H3|exact (proj1 Hr)]|]. intros t4 t4' H4.
    astep. cbn [fst snd Rmsg]. tauto.
  Qed.
  Definition Rpv (p p' : CurvePoint C * CurvePoint C) : Prop := Rpoint (fst p) (fst p') /\ Rpoint (snd p) (snd p').
  Lemma A_ip_update c c' pv pv' m m' : Rbits c c' -> Rpv pv pv' -> Rmsg m m' -> alike Rpv (ip_update one c pv m) (ip_update one c' pv' m').
  Proof.
    destruct m as [[[L R] l] rr], m' as [[[L' R'] l'] rr'], pv as [p v], pv' as [p' v']. intros Hc [Hp Hv] ([HL IL] & [HR IR] & [Hl Il] & [Hr Ir]). cbn [fst snd] in *.
    unfold ip_update. cbv beta iota.
    eapply alike_nsb; [apply A_multiply_endo; [exact V1|exact (Rp_0 _ _ _ HL)|exact Hc]|]. intros L1 L1' [HL1 _].
    eapply alike_nsb; [apply (A_multiply_inv_endo CL); [exact V1|exact (Rp_0 _ _ _ HR)|exact IR|exact Hc]|]. intros R1 R1' HR1.
    eapply alike_nsb; [apply A_multiply_endo; [exact V1|exact (Rp_0 _ _ _ Hl)|exact Hc]|]. intros l1 l1' [Hl1 _].
    eapply alike_nsb; [apply (A_multiply_inv_endo CL); [exact V1|exact (Rp_0 _ _ _ Hr)|exact Ir|exact Hc]|]. intros r1 r1' Hr1.
    eapply alike_nsb; [apply (A_add CL); eassumption|]. intros p1 p1' [Hp1 _].
    eapply alike_nsb; [apply (A_add CL); eassumption|]. intros p2 p2' [Hp2 _].
    eapply alike_nsb; [apply (A_add CL); eassumption|]. intros v1 v1' [Hv1 _].
    eapply alike_nsb; [apply (A_add CL); eassumption|]. intros v2 v2' [Hv2 _].
    astep. split; assumption.
  Qed.
  Definition Rst (s s' : list (CurvePoint C * CurvePoint C) * RescueGadget F * list (list AllocatedBit)) : Prop :=
    let '(pvs, t, packed) := s in let '(pvs', t', packed') := s' in Forall2 Rpv pvs pvs' /\ length pvs <= 5 /\ Rgad t t' /\ Forall2 Rbits packed packed'.
  Lemma A_ip_round s s' i : i < k -> Rst s s' -> alike Rst (ip_round one self s i) (ip_round one self' s' i).
  Proof.
    intros Hi. destruct s as [[pvs t] packed], s' as [[pvs' t'] packed']. intros (Hp & L5 & Ht & Hk). unfold ip_round. cbv beta iota. apply alike_ns.
    rewrite <- (Forall2_length _ _ _ Hp).
    eapply (alike_bind _ _ (fun r r' => Forall2 Rmsg (fst r) (fst r') /\ Rgad (snd r) (snd r'))).
    - eapply alike_fold1.
      + intros [ms u] [ms' u'] j Hj [Hm Hu]. cbn [fst snd] in *. cbv beta iota. apply in_seq in Hj.
        eapply alike_bind; [apply A_ip_message; [exact Hi|lia|exact Hu]|]. intros [[[[L R] l] rr] u1] [[[[L' R'] l'] rr'] u1'] [H1 H2]. cbn [fst snd] in *. cbv beta iota.
        astep. cbn [fst snd]. split; [|exact H2]. apply Forall2_app; [exact Hm|]. constructor; [exact H1|constructor].
      + cbn [fst snd]. split; [constructor|exact Ht].
    - intros [ms u] [ms' u'] [Hm Hu]. cbn [fst snd] in *. cbv beta iota.
      eapply (alike_bind _ _ (fun _ _ => True)).
      + assert (E : exists v', match vc_forkvalues self' with None => ret (Err AssignmentMissing) | Some fs => bind (unwrap (nth_error fs i)) (fun f => ret (Ok (f_from_u128 (Z.of_nat f)))) end = ret (F := F) v' :> CS F (res F)).
        { destruct (vc_forkvalues self') as [fs|]; [|eexists; reflexivity]. destruct (nth_error fs i) eqn:E; [|apply nth_error_None in E; lia]. eexists. reflexivity. }
        destruct E as [v' E]. rewrite E. destruct (vc_forkvalues self) as [fs|]; [|apply alike_ret; exact I].
        destruct (nth_error fs i); [apply alike_ret; exact I|apply al_panic].
      + intros fork fork' _. eapply alike_nsb; [apply A_num_alloc|]. intros n n' Hn.
        eapply alike_nsb; [apply A_absorb; [exact V1|exact Hu|rel]|]. intros t1 t1' H1.
        eapply alike_nsb; [apply A_get_challenge; assumption|]. intros [c t2] [c' t2'] [Hc H2]. cbn [fst snd] in *. cbv beta iota.
        eapply alike_bind; [eapply (alike_mapM_len _ _ (fun p p' => Rpv (fst p) (fst p') /\ Rmsg (snd p) (snd p')) Rpv); [|apply Forall2_combine; eassumption]|].
        { intros [pv m] [pv' m'] [Hpv Hm1]. apply A_ip_update; assumption. }
        intros ps ps' [Hps Lps]. rewrite combine_length in Lps. astep. cbn [Rst]. split; [exact Hps|]. split; [lia|]. split; [exact H2|].
        apply Forall2_app; [exact Hk|]. constructor; [exact Hc|constructor].
  Qed.
  Lemma A_ip_final b b' G G' g g' j pv pv' bs bs' : Rbit b b' -> Rpoint G G' -> Rpoint g g' -> j < 5 -> Rpv pv pv' -> Rbits bs bs' ->
    alike T (ip_final one self b G g j pv bs) (ip_final one self' b' G' g' j pv' bs').
  Proof.
    intros Hb HG Hg Hj. destruct pv as [p v], pv' as [p' v']. intros [Hp Hv] Hbs. cbn [fst snd] in *. unfold ip_final. cbv beta iota.
    assert (E : exists a', match vc_proof self' with Some q => nth_error (mo_a (pf_inner_product (op_proof q))) j | None => Some fzero end = Some a').
    { unfold sound_old in HS. destruct (vc_proof self') as [pr|]; [|eexists; reflexivity]. destruct HS as (_ & _ & _ & HA & _).
      destruct (nth_error (mo_a (pf_inner_product (op_proof pr))) j) eqn:E; [eexists; reflexivity|]. apply nth_error_None in E. lia. }
    destruct E as [a' E]. rewrite E. destruct (match vc_proof self with Some q => nth_error (mo_a (pf_inner_product (op_proof q))) j | None => Some fzero end) as [a|]; [|apply al_panic].
    change (bind (unwrap (Some ?a)) ?f) with (f a). cbv beta.
    eapply alike_nsb; [unfold witness_bits_from_fe; apply A_alloc_bits; rewrite !H256s; reflexivity|]. intros ab ab' (Hab & _ & _).
    eapply alike_nsb; [apply (A_multiply CL); eassumption|]. intros ag ag' [X1 Y1 _ _]. destruct Hp as [X2 Y2 _ _]. destruct Hv as [X3 Y3 _ _].
    eapply alike_nsb; [eapply alike_nsb; [apply A_num_equal; [exact V1|exact Hb|rel|rel]|]; intros _ _ _; apply alike_ns, A_num_equal; [exact V1|exact Hb|rel|rel]|]. intros _ _ _.
    eapply alike_nsb; [apply (A_multiply CL); eassumption|]. intros av av' Hav. eapply alike_nsb; [apply (A_multiply CL); eassumption|]. intros abv abv' [X4 Y4 _ _].
    apply alike_ns. eapply alike_nsb; [apply A_num_equal; [exact V1|exact Hb|rel|rel]|]. intros _ _ _. apply alike_ns, A_num_equal; [exact V1|exact Hb|rel|rel].
  Qed.
  Lemma A_inner_product b b' t t' cl cl' bs bs' : Rbit b b' -> Rgad t t' -> Forall2 Rpv cl cl' -> length cl <= 5 -> Forall2 Rbits bs bs' ->
    alike (fun r r' => Rpoint (fst r) (fst r') /\ Forall2 Rbits (snd r) (snd r')) (verify_inner_product one self b t cl bs) (verify_inner_product one self' b' t' cl' bs').
  Proof.
    intros Hb Ht Hcl L5 Hbs. unfold verify_inner_product. rewrite HK, HK'.
    eapply alike_bind; [eapply (alike_fold1 _ _ Rst)|].
    - intros a a' i Hi Ha. apply in_seq in Hi. apply A_ip_round; [lia|exact Ha].
    - cbn [Rst]. split; [exact Hcl|]. split; [exact L5|]. split; [exact Ht|constructor].
    - intros [[pvs t1] packed] [[pvs' t1'] packed'] (Hp & L1 & Ht1 & Hk). cbv beta iota.
      eapply alike_bind; [apply A_witness_of; intros p (_ & _ & _ & _ & H & _); exact H|]. intros G G' [HG _]. apply A_g_constantb. intros g g' Hg.
      eapply (alike_bind _ _ T).
      + eapply (alike_foldM _ _ (fun p p' => fst p = fst p' /\ fst p < length pvs /\ Rpv (snd p) (snd p')) T); [|apply Forall2_enumerate, Hp|exact I].
        intros _ _ [j pv] [j' pv'] _ (Ej & Lj & Hpv). cbn [fst snd] in *. subst j'. cbv beta iota.
        eapply (alike_unwrapb _ _ Rbits); [intros a Ea; exact (Forall2_nth _ _ _ _ _ Hbs Ea)|]. intros bj bj' Hbj. apply A_ip_final; try assumption. lia.
      + intros _ _ _. astep. split; assumption.
  Qed.
  Lemma A_opening g g' t t' bs bs' from : Rpoint g g' -> Rgad t t' -> Rbits bs bs' ->
    alike (fun r r' => Rpoint (fst r) (fst r') /\ Rgad (snd r) (snd r')) (opening_point one g t bs from) (opening_point one g' t' bs' from).
  Proof.
    intros Hg Ht Hb. unfold opening_point. apply A_bits_atb; [exact Hb|]. intros l l' Hl _. eapply alike_nsb; [apply (A_multiply CL); eassumption|]. intros p p' Hp.
    eapply alike_nsb; [apply A_commit_point; eassumption|]. intros t1 t1' H1. astep. split; assumption.
  Qed.
  Lemma A_witness_commit s s' f t t' : (forall p, proof_of_points k (op_proof p) (op_oldproof1 p) -> valid (f p)) -> Rgad t t' ->
    alike (fun r r' => Rpoint (fst r) (fst r') /\ Rgad (snd r) (snd r')) (witness_commit one self s f t) (witness_commit one self' s' f t').
  Proof.
    intros H Ht. unfold witness_commit. eapply alike_bind; [apply A_witness_of, H|]. intros p p' [Hp _]. eapply alike_nsb; [apply A_commit_point; eassumption|]. intros t1 t1' H1.
    astep. split; assumption.
  Qed.

  Ltac wc := eapply alike_bind; [apply A_witness_commit; [intros ? (Hvs & Hwf); repeat match goal with H : Forall _ (_ :: _) |- _ => inversion H; clear H; subst end; assumption|eassumption]|];
    let P := fresh "P" in let t := fresh "t" in let P' := fresh "P'" in let t' := fresh "t'" in let HP := fresh "HP" in let Ht := fresh "Ht" in
    intros [P t] [P' t'] [HP Ht]; cbn [fst snd] in HP, Ht; cbv beta iota.
  Ltac wcm := eapply alike_bind; [apply A_witness_commit; [intros ? _; exact (rep_valid CL _ _ (rep_mul CL _ _ _ (cl_rep_one _ _ _ _ _ CL)))|eassumption]|];
    let P := fresh "P" in let t := fresh "t" in let P' := fresh "P'" in let t' := fresh "t'" in let HP := fresh "HP" in let Ht := fresh "Ht" in
    intros [P t] [P' t'] [HP Ht]; cbn [fst snd] in HP, Ht; cbv beta iota.
  Ltac gc := eapply alike_nsb; [apply A_get_challenge; [exact V1|exact H256|eassumption]|];
    let P := fresh "c" in let t := fresh "t" in let P' := fresh "c'" in let t' := fresh "t'" in let HP := fresh "Hc" in let Ht := fresh "Ht" in
    intros [P t] [P' t'] [HP Ht]; cbn [fst snd] in HP, Ht; cbv beta iota.
  Ltac op := eapply alike_bind; [apply A_opening; eassumption|];
    let P := fresh "P" in let t := fresh "t" in let P' := fresh "P'" in let t' := fresh "t'" in let HP := fresh "HP" in let Ht := fresh "Ht" in
    intros [P t] [P' t'] [HP Ht]; cbn [fst snd] in HP, Ht; cbv beta iota.
  Definition alike_chains (ch ch' : list AllocatedBit -> CurvePoint C -> list (CurvePoint C) -> CS F (CurvePoint C)) : Prop :=
    forall z z' P P' Ps Ps', Rbits z z' -> Rpoint P P' -> Forall2 Rpoint Ps Ps' -> alike Rpoint (ch z P Ps) (ch' z' P' Ps').
  Lemma A_verify_proof ch ch' b b' K K' ol ol' nd nd' nl nl' : alike_chains ch ch' -> Rbit b b' -> Rpoint K K' -> Rbits ol ol' -> Rbits nd nd' -> Rbits nl nl' ->
    alike T (g_verify_proof_with one ch self b K ol nd nl) (g_verify_proof_with one ch' self' b' K' ol' nd' nl').
  Proof.
    intros HCh Hb HKp Hol Hnd Hnl. unfold g_verify_proof_with. rewrite HK, HK'. cbv zeta.
    eapply alike_nsb; [apply A_gadget_new, V1|]. intros t0 t0' Ht0.
    eapply alike_nsb; [apply A_commit_point; eassumption|]. intros t1 t1' Ht1.
    wc. gc. wc. wc. wc. gc. wc. gc. wc. apply A_g_constantb. intros g g' Hg.
    op. op. op. wcm. op. op. op. wcm. op. gc.
    eapply alike_bind; [apply A_witness_of; intros ? (Hvs & _); repeat match goal with H : Forall _ (_ :: _) |- _ => inversion H; clear H; subst end; assumption|]. intros so so' [Hso _].
    eapply alike_bind; [apply A_point_equal; assumption|]. intros _ _ _.
    eapply alike_bind; [apply A_witness_of; intros ? (Hvs & _); repeat match goal with H : Forall _ (_ :: _) |- _ => inversion H; clear H; subst end; assumption|]. intros go go' [Hgo _].
    eapply alike_bind; [apply A_point_equal; assumption|]. intros _ _ _.
    eapply alike_nsb; [apply HCh; [assumption|assumption|repeat (constructor; [assumption|]); constructor]|]. intros pc pc' Hpc.
    eapply alike_nsb; [apply A_endo_chain; [assumption|assumption|repeat (constructor; [assumption|]); constructor]|]. intros po po' Hpo.
    eapply alike_nsb; [apply A_endo_chain; [assumption|assumption|repeat (constructor; [assumption|]); constructor]|]. intros qc qc' Hqc.
    eapply alike_nsb; [apply A_endo_chain; [assumption|assumption|repeat (constructor; [assumption|]); constructor]|]. intros qy qy' Hqy.
    eapply (alike_bind _ _ (Forall2 Rbits)).
    { eapply (alike_mapM _ _ eq Rbits); [|apply Forall2_same; reflexivity]. intros i ? <-. unfold bits_at.
      rewrite <- (Forall2_length _ _ _ Hnd). destruct (256 * (7 + i) + (4 + 2 * k) * 128 + 256 <=? length nd); [|apply al_panic]. apply alike_ret, Forall2_firstn, Forall2_skipn, Hnd. }
    intros bs bs' Hbs.
    eapply alike_nsb; [apply A_inner_product; [exact Hb|eassumption|repeat (constructor; [split; assumption|]); constructor|cbn; lia|exact Hbs]|].
    intros [gn pk] [gn' pk'] [Hgn Hpk]. cbn [fst snd] in *. cbv beta iota.
    eapply alike_bind; [apply A_point_equal; assumption|]. intros _ _ _.
    eapply (alike_bind _ _ T); [apply A_bits_atb; [assumption|]; intros l l' Hl _; apply alike_ns, A_equal_unless; assumption|]. intros _ _ _.
    eapply alike_bind; [apply A_point_equal; assumption|]. intros _ _ _.
    eapply (alike_bind _ _ T).
    { eapply (alike_foldM _ _ (fun p p' => fst p = fst p' /\ fst p < length pk /\ Rbits (snd p) (snd p')) T); [|apply Forall2_enumerate, Hpk|exact I].
      intros _ _ [i bb] [i' bb'] _ (Ei & _ & Hbb). cbn [fst snd] in *. subst i'. cbv beta iota.
      apply A_bits_atb; [assumption|]. intros l l' Hl _. eapply alike_nsb; [apply A_equal_unless; assumption|]. intros _ _ _.
      apply A_bits_atb; [assumption|]. intros m m' Hm _. apply alike_ns, A_equal_unless; assumption. }
    intros _ _ _.
    eapply (alike_bind _ _ T); [apply A_bits_atb; [assumption|]; intros l l' Hl _; apply alike_ns, A_equal_unless; assumption|]. intros _ _ _.
    eapply (alike_bind _ _ T); [apply A_bits_atb; [assumption|]; intros l l' Hl _; apply alike_ns, A_equal_unless; assumption|]. intros _ _ _.
    apply A_bits_atb; [assumption|]. intros l l' Hl _. apply alike_ns, A_equal_unless; assumption.
  Qed.
  Lemma A_check_bits s s' bs bs' : Rbits bs bs' -> alike T (check_bits s bs) (check_bits s' bs').
  Proof. intro H. unfold check_bits. apply alike_ns. eapply alike_foldM; [|exact H|exact I]. intros. apply alike_ns, A_bit_check. assumption. Qed.
  Lemma A_payload_bit b b' bit o o' : Rbit b b' -> Rbit o o' -> alike T (constrain_payload_bit one b bit o) (constrain_payload_bit one b' bit o').
  Proof.
    intros Hb Ho. unfold constrain_payload_bit. cbv zeta. apply alike_mulb. intros x y z st Hx Hy Hz. cbv beta iota.
    eapply (alike_bind _ _ T); [destruct bit; astep|]. intros _ _ _. astep. astep.
  Qed.
  (** The generators: points of the curve, the first of which are not opposite *)
  Definition summable (x y : F) (gens : list (F * F)) : Prop :=
    on_curve (c_b C) (Some (x, y)) /\ Forall (fun xy => on_curve (c_b C) (Some xy)) gens /\
    match gens with [] => True | xy :: _ => ~ sum_of (Some (x, y)) (Some xy) infinity end.
  Lemma A_commit_bits gx gy gens bits bits' : summable gx gy gens -> Rbits bits bits' ->
    match bits' with [] => True | b :: _ => bit_value b = None end ->
    alike Rpoint (commit_bits one gens bits (cp_constant gx gy)) (commit_bits one gens bits' (cp_constant gx gy)).
  Proof.
    intros (H1 & H2 & H3) Hb Hv. unfold commit_bits.
    destruct Hb as [|b b' bits bits' Hb Hbs]; [apply alike_ret, R_const, H1|]. destruct H2 as [|[x2 y2] gens Hg H2]; [apply alike_ret, R_const, H1|].
    cbn [combine foldM]. eapply alike_nsb; [apply (A_add_cond CL); [exact V1|apply R_const, H1|apply R_const, Hg|exact Hb|left; exact Hv|reflexivity|reflexivity|]|].
    - intros p1 p2 E1 E2. change (Some (@c_from_xy C gx gy) = Some (Some p1)) in E1. change (Some (@c_from_xy C x2 y2) = Some (Some p2)) in E2.
      destruct (proj1 (from_xy_top CL gx gy) H1) as (q1 & F1 & R1 & _). destruct (proj1 (from_xy_top CL x2 y2) Hg) as (q2 & F2 & R2 & _).
      rewrite F1 in E1. rewrite F2 in E2. injection E1 as <-. injection E2 as <-.
      destruct (add_top CL _ _ _ _ R1 R2) as ((D & HD) & HR). rewrite (cl_get_xy _ _ _ _ _ CL _ _ (HR D HD)). intros ->. exact (H3 HD).
    - intros P P' (HP & HX & HI). eapply alike_weaken with (R := fun R R' => Rpoint R R' /\ n_value (cp_x R') = None /\ cp_id R' = Constant false); [|intros ? ? X; exact (proj1 X)].
      assert (HG : Forall2 (fun xy xy' => xy = xy' /\ on_curve (c_b C) (Some xy)) gens gens).
      { clear - H2. induction H2; constructor; [split; [reflexivity|assumption]|assumption]. }
      eapply alike_foldM; [|exact (Forall2_combine _ _ _ _ _ _ Hbs HG)|split; [exact HP|split; assumption]].
      intros a a' [c [x y]] [c' [x' y']] (Ha & HX' & HI') (Hc & Exy & Hon). cbn [fst snd] in *. injection Exy as <- <-.
      apply alike_ns. apply (A_add_cond CL); [exact V1|exact Ha|apply R_const, Hon|exact Hc|right; exact HX'|exact HI'|reflexivity|].
      intros p1 p2 E1 _. unfold cp_get_point in E1. rewrite HX' in E1. discriminate E1.
  Qed.

  (** The lists of bits of the circuit *)
  Definition in_payload (s : VerificationCircuit C) := bytes_bits (vc_new_payload s).
  Definition in_old (s : VerificationCircuit C) := match vc_old_leftovers s with Some l => bytes_bits l | None => repeat false (leftovers_bits (p_k (vc_params s))) end.
  Definition in_new (s : VerificationCircuit C) := match vc_new_leftovers s with
       | Some l => bytes_bits (leftovers_to_bytes l) | None => repeat false (leftovers_bits (p_k (vc_params s))) end.
  Definition in_deferred (s : VerificationCircuit C) := match vc_deferred s with
       | Some l => bytes_bits (deferred_to_bytes l) | None => repeat false (deferred_bits (p_k (vc_params s))) end.
  Definition w_payload (s : VerificationCircuit C) := match vc_proof s with Some p => bytes_bits (op_payload p) | None => base_payload (vc_inner s) end.
  Definition w_leftovers (s : VerificationCircuit C) := match vc_proof s with
       | Some p => bytes_bits (leftovers_to_bytes (op_oldproof1 p)) | None => repeat false (leftovers_bits (p_k (vc_params s))) end.
  Definition w_deferred (s : VerificationCircuit C) := match vc_proof s with Some p => Some (op_deferred p) | None => deferred_dummy (p_k (vc_params s)) end.
  Definition vc_tail_with (one : Var) (ch : list AllocatedBit -> CurvePoint C -> list (CurvePoint C) -> CS F (CurvePoint C)) (self : VerificationCircuit C) (payload_bits leftovers1 leftovers2 deferred : list AllocatedBit) : CS F unit :=
    (let k := p_k (vc_params self) in
    check_bits "constrain new_payload" payload_bits ;;;
    check_bits "constrain old_leftovers" leftovers1 ;;;
    check_bits "constrain new_leftovers" leftovers2 ;;;
    check_bits "constrain deferred" deferred ;;;
    base_case <- namespace "is base case" (bit_alloc (ok_or_missing (vc_base_case self))) ;;
    '(gx, gy) <- unwrap (nth_error (p_generators_xy (vc_params self)) 1) ;;
    let k_commitment := cp_constant gx gy in
    old_payload <- match vc_proof self with
                   | Some p => witness_bits "old_payload" (bytes_bits (op_payload p))
                   | None => witness_bits "base_payload" (base_payload (vc_inner self))
                   end ;;
    namespace "constrain old_payload if base case"
      (foldM (fun (_ : unit) '(bit, old) => constrain_payload_bit one base_case bit old)
             (combine (base_payload (vc_inner self)) old_payload) tt) ;;;
    old_leftovers1 <- witness_bits "old_proof"
      (match vc_proof self with
       | Some p => bytes_bits (leftovers_to_bytes (op_oldproof1 p)) | None => repeat false (leftovers_bits k) end) ;;
    old <- unwrap (match vc_proof self with Some p => Some (op_deferred p) | None => deferred_dummy k end) ;;
    old_deferred <- witness_bits "old_deferred" (bytes_bits (deferred_to_bytes old)) ;;
    assert_ (length old_deferred =? length deferred) ;;;
    gens <- unwrap (slice_from (p_generators_xy (vc_params self)) 2) ;;
    k_commitment <- namespace "k_commitment"
      (commit_bits one gens (old_payload ++ old_leftovers1 ++ leftovers1 ++ old_deferred) k_commitment) ;;
    namespace "verify deferred" (verify_deferred one k old_deferred) ;;;
    namespace "verify proof" (g_verify_proof_with one ch self base_case k_commitment old_leftovers1 deferred leftovers2) ;;;
    (dc <- bits_at deferred (256 * 8) (128 * k) ;;
     oc <- unwrap (slice_from old_leftovers1 (256 * 4 + 128)) ;;
     namespace "deferred[challeges] == old_leftovers1[challenges]" (equal_unless_base_case one base_case dc oc)) ;;;
    (dy <- bits_at deferred (128 * 1) 128 ;;
     oy <- bits_at old_leftovers1 (256 * 2) 128 ;;
     namespace "deferred[y_old] == old_leftovers1[y_old]" (equal_unless_base_case one base_case dy oy)) ;;;
    namespace "inner circuit" (inner_synthesize (vc_inner self) one old_payload payload_bits))%cs.
  Definition vc_tail (one : Var) := vc_tail_with one (endo_chain one).
  Lemma synthesize_split_with ch s : vc_synthesize_with one ch s =
    (payload_bits <- input_bits "new_payload" (in_payload s) ;;
     leftovers1 <- input_bits "old_leftovers" (in_old s) ;;
     leftovers2 <- input_bits "new_leftovers" (in_new s) ;;
     deferred <- input_bits "deferred" (in_deferred s) ;;
     vc_tail_with one ch s payload_bits leftovers1 leftovers2 deferred)%cs.
  Proof. reflexivity. Qed.
  Lemma synthesize_split s : vc_synthesize one s =
    (payload_bits <- input_bits "new_payload" (in_payload s) ;;
     leftovers1 <- input_bits "old_leftovers" (in_old s) ;;
     leftovers2 <- input_bits "new_leftovers" (in_new s) ;;
     deferred <- input_bits "deferred" (in_deferred s) ;;
     vc_tail one s payload_bits leftovers1 leftovers2 deferred)%cs.
  Proof. reflexivity. Qed.
  Lemma A_vc_tail ch ch' gx gy gens pb pb' l1 l1' l2 l2' d d' D' ok bits : alike_chains ch ch' ->
    nth_error (p_generators_xy (vc_params self)) 1 = Some (gx, gy) -> slice_from (p_generators_xy (vc_params self)) 2 = Some gens -> summable gx gy gens ->
    vc_params self' = vc_params self -> vc_inner self' = vc_inner self -> uniform ok (vc_inner self) -> map bit_value pb' = map Some bits -> ok bits ->
    length (w_payload self) = length (w_payload self') -> length (w_leftovers self) = length (w_leftovers self') -> w_leftovers self' <> [] ->
    w_deferred self' = Some D' ->
    (forall D, w_deferred self = Some D -> length (bytes_bits (deferred_to_bytes D)) = length (bytes_bits (deferred_to_bytes D'))) ->
    Rbits pb pb' -> Rbits l1 l1' -> Rbits l2 l2' -> Rbits d d' ->
    alike T (vc_tail_with one ch self pb l1 l2 d) (vc_tail_with one ch' self' pb' l1' l2' d').
  Proof.
    intros HCh Eg Es Hsum EP EI HU Epb Hok Lp Ll Nl ED LD Hpb Hl1 Hl2 Hd. unfold vc_tail_with. cbv zeta. rewrite EP, HK.
    eapply alike_bind; [apply A_check_bits; assumption|]. intros _ _ _.
    eapply alike_bind; [apply A_check_bits; assumption|]. intros _ _ _.
    eapply alike_bind; [apply A_check_bits; assumption|]. intros _ _ _.
    eapply alike_bind; [apply A_check_bits; assumption|]. intros _ _ _.
    eapply alike_nsb; [apply A_bit_alloc|]. intros b b' [Hb _]. rewrite Eg. change (bind (unwrap (Some (gx, gy))) ?f) with (f (gx, gy)). cbv beta iota.
    eapply (alike_bind _ _ (fun bs bs' => Rbits bs bs' /\ Forall (fun b => bit_value b = None) bs' /\ length bs' = length (w_payload self'))).
    { unfold w_payload in *. destruct (vc_proof self); destruct (vc_proof self'); apply alike_ns, A_alloc_bits; exact Lp. }
    intros op op' (Hop & Vop & _). rewrite EI.
    eapply alike_nsb.
    { eapply (alike_foldM _ _ (fun p p' => fst p = fst p' /\ Rbit (snd p) (snd p')) T); [|eapply Forall2_combine; [|exact Hop]; apply Forall2_same; reflexivity|exact I].
      intros _ _ [bit o] [bit' o'] _ (Ebit & Ho). cbn [fst snd] in *. subst bit'. apply A_payload_bit; assumption. }
    intros _ _ _.
    assert (EWp : forall s, p_k (vc_params s) = k -> match vc_proof s with Some p => bytes_bits (leftovers_to_bytes (op_oldproof1 p)) | None => repeat false (leftovers_bits k) end = w_leftovers s) by (intros s <-; reflexivity).
    rewrite !EWp by assumption.
    eapply alike_nsb; [apply A_alloc_bits, Ll|]. intros ol ol' (Hol & Vol & Lol).
    assert (EWd : forall s, p_k (vc_params s) = k -> match vc_proof s with Some p => Some (op_deferred p) | None => deferred_dummy k end = w_deferred s) by (intros s <-; reflexivity).
    rewrite !EWd by assumption. rewrite ED. destruct (w_deferred self) as [D|] eqn:EDs; [|apply al_panic]. specialize (LD D eq_refl).
    change (bind (unwrap (Some D)) ?f) with (f D). change (bind (unwrap (Some D')) ?f) with (f D'). cbv beta.
    eapply alike_nsb; [apply A_alloc_bits, LD|]. intros od od' (Hod & _ & _).
    rewrite <- (Forall2_length _ _ _ Hod), <- (Forall2_length _ _ _ Hd). apply alike_assertb; [auto|]. intros _.
    rewrite Es. change (bind (unwrap (Some gens)) ?f) with (f gens). cbv beta.
    eapply alike_nsb; [apply A_commit_bits; [exact Hsum|repeat (apply Forall2_app; [assumption|]); assumption|]|].
    { destruct op' as [|o op']; cbn [app].
      - destruct ol' as [|o ol']; [|cbn [app]; inversion Vol; assumption]. destruct (w_leftovers self'); [congruence|discriminate Lol].
      - inversion Vop. assumption. }
    intros K K' HKp.
    eapply alike_nsb; [apply A_verify_deferred; assumption|]. intros _ _ _.
    eapply alike_nsb; [apply A_verify_proof; [exact HCh|assumption..]|]. intros _ _ _.
    eapply (alike_bind _ _ T).
    { apply A_bits_atb; [assumption|]. intros l l' Hl _. eapply (alike_unwrapb _ _ Rbits); [|intros; apply alike_ns, A_equal_unless; assumption].
      intros a Ea. unfold slice_from in *. rewrite <- (Forall2_length _ _ _ Hol). destruct (256 * 4 + 128 <=? length ol); [|discriminate Ea]. assert (a = skipn (256 * 4 + 128) ol) as -> by congruence.
      eexists. split; [reflexivity|]. apply Forall2_skipn, Hol. }
    intros _ _ _.
    eapply (alike_bind _ _ T).
    { apply A_bits_atb; [assumption|]. intros l l' Hl _. apply A_bits_atb; [assumption|]. intros m m' Hm _. apply alike_ns, A_equal_unless; assumption. }
    intros _ _ _. apply alike_ns. eapply alike_inp; [|eapply HU; eassumption]. intros [].
  Qed.
End Circuit.
