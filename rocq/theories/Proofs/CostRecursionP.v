(** How many wires and constraints the recursive circuit adds. *)
From Coq Require Import String List Bool Arith ZArith Lia.
From Verif Require Import Model.FieldTrait Model.Circuits Model.Num Model.Boolean Model.Curve Model.Util Model.Rescue Model.RescueGadget Model.Ecc Model.Params
  Model.Opening Model.Proofs Model.Recursion
  Spec.SystemSpec Spec.SizeSpec Proofs.SystemP Proofs.RecursiveSystemP Proofs.CostP Proofs.CostEccP.
Import ListNotations.
Open Scope list_scope. Open Scope Z_scope.
Notation length := List.length.

(** a loop that carries a potential *)
Lemma uses_loop {F : Field} {A B} (f : B -> A -> CS F B) (P : nat -> B -> Prop) (phi : B -> Z) w l xs :
  (forall i b x, In x xs -> P i b -> uses (f b x) (fun b' w' l' => w' + phi b' <= w + phi b /\ l' + phi b' <= l + phi b /\ P (S i) b')) ->
  forall i b, P i b -> uses (foldM f xs b) (fun b' w' l' => w' + phi b' <= w * Z.of_nat (length xs) + phi b /\ l' + phi b' <= l * Z.of_nat (length xs) + phi b /\ P (i + length xs)%nat b').
Proof.
  induction xs as [|x xs IH]; intros H i b Hb; cbn [foldM].
  - apply uses_ret. cbn [length]. rewrite Nat.add_0_r. split; [lia|]. split; [lia|]. exact Hb.
  - eapply uses_bind; [apply (H i); [left; reflexivity|exact Hb]|]. intros b1 w1 l1 (E1 & E2 & E3).
    eapply uses_weaken; [apply (IH (fun i b x Hx => H i b x (or_intror Hx)) (S i) b1 E3)|].
    cbv beta. intros b2 w2 l2 (E4 & E5 & E6). cbn [length]. rewrite <- Nat.add_succ_comm. split; [lia|]. split; [lia|]. exact E6.
Qed.

Section Helpers.
  Context {F : Field}.
  Variable one : Var.
  Hypothesis H256 : forall x : F, length (fe_bits x) = 256%nat.
  Local Notation uses := (@uses F _).

  Lemma U_bits_atb {A} bs from len (f : _ -> CS F A) Q : (forall l, length l = len -> uses (f l) Q) -> uses (bind (bits_at bs from len) f) Q.
  Proof.
    intro H. unfold bits_at. ustep. destruct (_ <=? _)%nat eqn:E; [|discriminate]. match goal with H : Some _ = Some _ |- _ => injection H as <- end.
    apply H. apply Nat.leb_le in E. rewrite firstn_length, skipn_length. lia.
  Qed.
  Lemma U_num_equal b (x y : Combination F) : uses (num_equal_unless_base_case one b x y) (upto 2 3).
  Proof. unfold num_equal_unless_base_case. repeat ustep. uend. Qed.
  Definition chunks (n : nat) : Z := (Z.of_nat n + 249) / 250.
  Lemma U_chunks b fuel : forall x y : list AllocatedBit, length x = length y ->
    uses (equal_chunks one fuel b x y) (upto (2 * chunks (length x)) (3 * chunks (length x))).
  Proof.
    unfold chunks. induction fuel as [|fuel IH]; intros x y E; cbn [equal_chunks].
    - ustep. unfold upto. pose proof (Z.div_pos (Z.of_nat (length x) + 249) 250). lia.
    - assert (Hx : x = [] \/ (0 < length x)%nat) by (destruct x; [left; reflexivity|right; cbn [length]; lia]).
      destruct Hx as [-> |Hx]; [ustep; unfold upto; pose proof (Z.div_pos (Z.of_nat (length (@nil AllocatedBit)) + 249) 250); lia|]. destruct x as [|x0 x1]; [cbn [length] in Hx; lia|]. set (x := x0 :: x1) in *. cbv zeta.
      ucall U_num_equal. intros ? w l E1. eapply uses_weaken; [apply IH; rewrite !skipn_length; lia|]. cbv beta. intros ? w' l' E2. unfold upto in *. rewrite skipn_length, <- E, Nat.min_id in E2.
      set (n := Z.of_nat (length x)). assert (Hn : 0 < n) by (unfold n; lia).
      replace (Z.of_nat (length x - Nat.min 250 (length x))) with (n - Z.min 250 n) in E2 by (unfold n; lia).
      assert (HD : (n + 249) / 250 = 1 + (n - Z.min 250 n + 249) / 250) by (clear - Hn; Z.to_euclidean_division_equations; lia). lia.
  Qed.
  Lemma U_equal_unless b x y : uses (equal_unless_base_case one b x y) (upto (2 * chunks (length x)) (3 * chunks (length x))).
  Proof. unfold equal_unless_base_case. ustep. match goal with H : _ = true |- _ => apply Nat.eqb_eq in H end. apply U_chunks. assumption. Qed.
  Lemma U_obtain bs : uses (obtain_scalar_from_bits bs) (upto 1 1).
  Proof. unfold obtain_scalar_from_bits. ucall (@U_num_alloc F). intros ? ? ? ?. repeat ustep. uend. Qed.
  Lemma U_witness_bits {F2 : Field} (H2 : forall x : F2, length (fe_bits x) = 256%nat) (v : F2) : uses (witness_bits_from_fe v) (fun l w' l' => w' <= 512 /\ l' <= 512 /\ length l = 256%nat).
  Proof.
    unfold witness_bits_from_fe. eapply uses_weaken; [apply (uses_mapM _ (fun _ => True) 2 2); intros; ustep; eapply uses_weaken; [apply U_bit_alloc|intros; uend]|].
    cbv beta. rewrite H2. intros l w1 l1 (E1 & E2 & E3 & _). lia.
  Qed.
  Lemma U_challenge_step bs (a : Combination F) i : uses (challenge_step one bs a i) (upto 2 2).
  Proof. unfold challenge_step. cbv zeta. repeat ustep. uend. Qed.
  Lemma U_challenge_scalar bs : uses (g_get_challenge_scalar one bs) (upto 127 127).
  Proof.
    unfold g_get_challenge_scalar. ustep. eapply (uses_bind _ _ _ (upto 126 126)).
    - eapply uses_weaken; [apply (uses_foldM _ (fun _ => True) 2 2); [|exact I]; intros; eapply uses_weaken; [apply U_challenge_step|intros; uend]|].
      cbv beta. rewrite seq_length. intros. uend.
    - intros ? ? ? ?. ucall (@U_num_alloc F). intros ? ? ? ?. repeat ustep. uend.
  Qed.
  Lemma U_get_challenge t : gad t -> uses (g_get_challenge one t) (fun r w l => w <= 2074 /\ l <= 2075 /\ length (fst r) = 128%nat /\ gad (snd r) /\ held (snd r) = 0).
  Proof.
    intro H. unfold g_get_challenge. ucall (U_squeeze one t H). intros [n t'] w l (E1 & E2 & E3 & E4). cbn [snd] in *. ucall (U_unpack one H256). intros bs w1 l1 (E5 & E6 & E7).
    ustep. cbn [fst snd]. split; [lia|]. split; [lia|]. split; [|auto]. rewrite app_length, firstn_length, E7. reflexivity.
  Qed.
  Lemma U_compute_b_rev cs_ : forall is_ x, uses (g_compute_b_rev one x cs_ is_) (upto (6 * Z.of_nat (length cs_)) (6 * Z.of_nat (length cs_))).
  Proof.
    induction cs_ as [|c cs_ IH]; intros is_ x; [apply uses_panic|]. destruct is_ as [|i is_]; [destruct cs_; apply uses_panic|].
    assert (HS : forall f g, (forall x, uses (f x is_) (upto (6 * Z.of_nat (length cs_)) (6 * Z.of_nat (length cs_)))) ->
      g = (tmp <- namespace "x * challenges[-1]" (num_mul x c) ;;
        let tmp := comb_add_num (comb_from_num i) tmp in
        x2 <- namespace "x^2" (num_mul x x) ;;
        rest <- namespace "b layer" (f x2 is_) ;;
        b <- comb_mul one rest tmp ;; ret (comb_from_num b))%cs -> uses g (upto (6 * Z.of_nat (length (c :: cs_))) (6 * Z.of_nat (length (c :: cs_))))).
    { intros f g Hf ->. ucall (@U_num_mul F). intros ? ? ? ?. cbv zeta. ucall (@U_num_mul F). intros ? ? ? ?. ucall Hf. intros ? ? ? ?. ucall (@U_comb_mul F one). intros ? ? ? ?. ustep. cbn [length]. uend. }
    destruct cs_ as [|c2 cs_]; destruct is_ as [|i2 is_].
    - cbn [g_compute_b_rev]. ucall (@U_num_mul F). intros ? ? ? ?. ustep. cbn [length]. uend.
    - eapply (HS (fun x l => g_compute_b_rev one x _ l)); [|reflexivity]. intros. apply IH.
    - eapply (HS (fun x l => g_compute_b_rev one x _ l)); [|reflexivity]. intros. apply IH.
    - eapply (HS (fun x l => g_compute_b_rev one x _ l)); [|reflexivity]. intros. apply IH.
  Qed.
  Lemma U_compute_b x cs_ is_ : uses (g_compute_b one x cs_ is_) (upto (6 * Z.of_nat (length cs_)) (6 * Z.of_nat (length cs_))).
  Proof. unfold g_compute_b. repeat ustep. eapply uses_weaken; [apply U_compute_b_rev|]. rewrite rev_length. auto. Qed.
  Lemma U_compute_thing x k : uses (g_compute_thing one x k) (upto (4 * Z.of_nat k) (4 * Z.of_nat k)).
  Proof.
    unfold g_compute_thing. eapply (uses_bind _ _ _ (upto (4 * Z.of_nat k) (4 * Z.of_nat k))).
    - eapply uses_weaken; [apply (uses_foldM _ (fun _ => True) 4 4); [|exact I]|].
      + intros [a c] _ _ _. ucall (@U_comb_mul F one). intros ? ? ? ?. ucall (@U_num_mul F). intros ? ? ? ?. ustep. uend.
      + cbv beta. rewrite seq_length. intros. uend.
    - intros [a c] ? ? ?. ustep. uend.
  Qed.
  Lemma U_square_times x n : uses (square_times (F := F) x n) (upto (2 * Z.of_nat n) (2 * Z.of_nat n)).
  Proof.
    unfold square_times. eapply uses_weaken; [apply (uses_foldM _ (fun _ => True) 2 2); [|exact I]; intros; ustep; eapply uses_weaken; [apply U_num_mul|intros; uend]|].
    cbv beta. rewrite seq_length. intros. uend.
  Qed.
  Lemma U_cut_scalar s len bs : uses (cut_scalar (F := F) s len bs) (upto 1 1).
  Proof. unfold cut_scalar, cut. ustep. match goal with x : _ * _ |- _ => destruct x end. ucall U_obtain. intros ? ? ? ?. ustep. uend. Qed.
  Lemma U_cut_challenges k : forall bs, uses (cut_challenges one k bs) (fun r w l => w <= 127 * Z.of_nat k /\ l <= 127 * Z.of_nat k /\ length (fst r) = k).
  Proof.
    induction k as [|k IH]; intro bs; cbn [cut_challenges]; [ustep; cbn [fst length]; lia|]. unfold cut. ustep. match goal with x : _ * _ |- _ => destruct x end.
    ucall U_challenge_scalar. intros ? ? ? ?. ucall IH. intros [ns b] ? ? (? & ? & ?). ustep. cbn [fst length] in *. uend.
  Qed.
  Lemma U_unpack_deferred k bs : uses (unpack_deferred one k bs)
    (fun d w l => w <= 254 * Z.of_nat k + 16 /\ l <= 254 * Z.of_nat k + 16 /\ length (gd_sq_old d) = k /\ length (gd_sq_new d) = k).
  Proof.
    unfold unpack_deferred.
    repeat first [ucall U_cut_scalar; intros [? ?] ? ? ? | ucall U_cut_challenges; intros [? ?] ? ? (? & ? & ?) | ustep].
    cbn [gd_sq_old gd_sq_new fst] in *. split; [uend|]. split; [uend|]. auto.
  Qed.
  Lemma U_check_circuit k d : uses (check_circuit one k d) (upto (46 + 16 * Z.of_nat k) (47 + 16 * Z.of_nat k)).
  Proof.
    unfold check_circuit. cbv zeta.
    repeat first [ucall (@U_num_mul F); intros ? ? ? ? | ucall (@U_invert F one); intros ? ? ? ? | ucall U_square_times; intros ? ? ? ? | ucall U_compute_thing; intros ? ? ? ?
      | ucall (@U_comb_mul F one); intros ? ? ? ? | ustep].
    assert (HN : Z.of_nat x <= Z.of_nat k) by (match goal with H : usize_sub k 2 = Some _ |- _ => unfold usize_sub in H; destruct (_ <=? _)%nat; [injection H as <-; lia|discriminate H] end).
    uend.
  Qed.
  Lemma U_roots sq : uses (roots_and_inverses one sq) (fun r w l => w <= 6 * Z.of_nat (length sq) /\ l <= 6 * Z.of_nat (length sq) /\ length (fst r) = length sq).
  Proof.
    unfold roots_and_inverses. eapply uses_bind; [apply (uses_mapM _ (fun _ => True) 3 3); intros; ustep; eapply uses_weaken; [apply U_sqrt|intros; uend]|]. cbv beta. intros c w1 l1 (E1 & E2 & E3 & _).
    eapply uses_bind; [apply (uses_mapM _ (fun _ => True) 3 3); intros; ustep; eapply uses_weaken; [apply U_invert|intros; uend]|]. cbv beta. rewrite E3. intros c' w2 l2 (E4 & E5 & E6 & _).
    ustep. cbn [fst]. lia.
  Qed.
  Lemma U_verify_deferred k bs : uses (verify_deferred one k bs) (upto (62 + 318 * Z.of_nat k) (69 + 318 * Z.of_nat k)).
  Proof.
    unfold verify_deferred, enforce_value. ucall U_unpack_deferred. intros d w l (E1 & E2 & E3 & E4). ucall U_check_circuit. intros ? ? ? ?.
    ucall U_roots. rewrite E3. intros [o oi] ? ? (? & ? & HO). cbn [fst] in HO. ucall U_compute_b. rewrite HO. intros ? ? ? ?. ustep.
    ucall U_roots. rewrite E4. intros [n ni] ? ? (? & ? & HN). cbn [fst] in HN. do 5 (ucall U_compute_b; rewrite HN; intros ? ? ? ?). repeat ustep. uend.
  Qed.
End Helpers.

Section Circuit.
  Context {C : Curve}.
  Notation F := (Base C).
  Variable one : Var.
  Hypothesis H256 : forall x : F, length (fe_bits x) = 256%nat.
  Hypothesis H256s : forall x : Scalar C, length (fe_bits x) = 256%nat.
  Local Notation uses := (@uses F _).
  Local Notation CP := (CurvePoint C).

  Lemma U_commit_point t (P : CP) : gad t -> uses (commit_point one t P) (fun t' w l => w + 131 * held t' <= 262 + 131 * held t /\ l + 131 * held t' <= 262 + 131 * held t /\ gad t').
  Proof.
    intro H. unfold commit_point. ucall (U_absorb one t (cp_x P) H). intros t1 w l (E1 & E2 & E3). ustep. eapply uses_weaken; [apply (U_absorb one t1 (cp_y P) E3)|]. cbv beta. intros ? ? ? (? & ? & ?). split; [lia|]. split; [lia|]. assumption.
  Qed.
  Lemma U_witness_of self s f : uses (witness_of one self s f) (upto 12 11).
  Proof. unfold witness_of. ustep. apply U_witness. Qed.
  Lemma U_witness_at self s f : uses (witness_at one self s f) (upto 12 11).
  Proof. unfold witness_at. ustep. ustep. apply U_witness. Qed.
  Lemma U_point_equal s b (P : CP) bs from : uses (point_equal_unless one s b P bs from) (upto 1032 1038).
  Proof.
    unfold point_equal_unless. ustep. ucall (U_unpack one H256). intros x ? ? (? & ? & E1). ucall (U_unpack one H256). intros y ? ? (? & ? & E2).
    apply U_bits_atb. intros bx _. ucall (@U_equal_unless F). rewrite E1. intros ? ? ? ?. apply U_bits_atb. intros by_ _. ustep. eapply uses_weaken; [apply (@U_equal_unless F)|]. rewrite E2. intros ? ? ? ?.
    change (chunks 256) with 2 in *. uend.
  Qed.
  Lemma U_endo_chain z Ps : forall P : CP, uses (endo_chain one z P Ps) (upto (1066 * Z.of_nat (length Ps)) (1064 * Z.of_nat (length Ps))).
  Proof.
    intro P. unfold endo_chain. eapply uses_weaken; [apply (uses_foldM _ (fun _ => True) 1066 1064); [|exact I]|cbv beta; intros; uend].
    intros. ucall (@U_multiply_endo C one). intros ? ? ? ?. ustep. eapply uses_weaken; [apply U_add|intros; uend].
  Qed.
  Lemma U_g_constantb {A} (f : CP -> CS F A) Q : (forall P, uses (f P) Q) -> uses (bind g_constant f) Q.
  Proof. intro H. unfold g_constant. destruct (c_get_xy _) as [[x y]|]; [|apply uses_panic]. apply (H (cp_constant x y)). Qed.
  Lemma U_ip_message self i t j : gad t -> uses (ip_message one self i t j)
    (fun r w l => w + 131 * held (snd r) <= 1096 + 131 * held t /\ l + 131 * held (snd r) <= 1092 + 131 * held t /\ gad (snd r)).
  Proof.
    intro H. unfold ip_message. cbv zeta. do 4 (ucall U_witness_at; intros ? ? ? ?).
    do 4 (match goal with Hg : gad ?t |- CostP.uses (bind (namespace _ (commit_point _ ?t _)) _) _ => ucall (U_commit_point t); [exact Hg|intros ? ? ? (? & ? & ?)] end).
    ustep. cbn [snd]. split; [uend|]. split; [uend|]. assumption.
  Qed.
  Lemma U_ip_update c pv m : uses (ip_update one c pv m) (upto 4288 4282).
  Proof.
    unfold ip_update. destruct m as [[[L R] l] r], pv as [p v]. ucall (@U_multiply_endo C one). intros ? ? ? ?. ucall (@U_inv_endo C one). intros ? ? ? ?. ucall (@U_multiply_endo C one). intros ? ? ? ?. ucall (@U_inv_endo C one). intros ? ? ? ?.
    do 4 (ucall (@U_add C one); intros ? ? ? ?). ustep. uend.
  Qed.
  Definition ipst (i : nat) (st : list (CP * CP) * RescueGadget F * list (list AllocatedBit)) : Prop :=
    (length (fst (fst st)) <= 5)%nat /\ gad (snd (fst st)) /\ length (snd st) = i /\ Forall (fun b => length b = 128%nat) (snd st).
  Lemma U_ip_round self n st i : ipst n st -> uses (ip_round one self st i)
    (fun st' w l => w + 131 * held (snd (fst st')) <= 29126 + 131 * held (snd (fst st)) /\ l + 131 * held (snd (fst st')) <= 29076 + 131 * held (snd (fst st)) /\ ipst (S n) st').
  Proof.
    destruct st as [[pvs t] packed]. intros (HL & HG & HP & HB). cbn [fst snd] in *. unfold ip_round. ustep.
    eapply uses_bind; [refine (uses_loop _ (fun _ r => gad (snd r)) (fun r => 131 * held (snd r)) 1096 1092 _ _ 0%nat ([], t) HG)|].
    { intros _ [ms t0] j _ Ht. cbn [snd] in Ht. ucall (U_ip_message self i t0 j Ht). intros [[[[L R] l] r] t1] w1 l1 (E1 & E2 & E3). cbn [snd] in *. ustep. cbn [snd]. split; [lia|]. split; [lia|]. exact E3. }
    cbv beta. rewrite seq_length. intros [ms t1] w1 l1 (E1 & E2 & E3). cbn [snd] in *.
    eapply (uses_bind _ _ _ (upto 0 0)); [destruct (vc_forkvalues self); repeat ustep; uend|]. intros fork ? ? ?.
    ucall (@U_num_alloc F). intros fv ? ? ?. ucall (U_absorb one t1 (n_from fv) E3). intros t2 ? ? (? & ? & HG2).
    ucall (U_get_challenge one H256 t2 HG2). intros [ch t3] ? ? (? & ? & HC & HG3 & HH). cbn [fst snd] in *.
    eapply uses_bind; [apply (uses_mapM _ (fun _ => True) 4288 4282); intros [pv m] _; eapply uses_weaken; [apply U_ip_update|intros; uend]|].
    cbv beta. intros pvs' wx lx (E4 & E5 & E6 & _). rewrite combine_length in *. ustep. cbn [fst snd]. pose proof (held_ge t2).
    assert (HZ : Z.of_nat (length pvs) <= 5) by lia. assert (HZ' : Z.of_nat (Nat.min (length pvs) (length ms)) <= 5) by lia.
    split; [uend|]. split; [uend|]. split; cbn [fst snd]; [lia|]. split; [exact HG3|]. split; [rewrite app_length; cbn [length]; lia|]. apply Forall_app. split; [exact HB|]. constructor; [exact HC|constructor].
  Qed.
  Lemma U_ip_final self bc (gn g : CP) j pv b : length b = 256%nat -> uses (ip_final one self bc gn g j pv b) (upto 43528 44300).
  Proof.
    intro Hb. unfold ip_final. destruct pv as [p v]. ustep. ucall (@U_witness_bits F (Scalar C) H256s). intros a ? ? (? & ? & Ha).
    ucall (@U_multiply C one). rewrite Ha. intros ? ? ? ?. eapply (uses_nsb _ _ _ _ (upto 4 6)); [ucall (@U_num_equal F one); intros ? ? ? ?; ustep; eapply uses_weaken; [apply U_num_equal|intros; uend]|]. intros ? ? ? ?.
    ucall (@U_multiply C one). rewrite Ha. intros ? ? ? ?. ucall (@U_multiply C one). rewrite Hb. intros ? ? ? ?. ustep. ucall (@U_num_equal F one). intros ? ? ? ?. ustep. eapply uses_weaken; [apply U_num_equal|intros; uend].
  Qed.
  Lemma U_inner_product self bc t claims b : gad t -> (length claims <= 5)%nat -> Forall (fun x => length x = 256%nat) b ->
    uses (verify_inner_product one self bc t claims b) (fun r w l => w <= 29126 * Z.of_nat (p_k (vc_params self)) + 131 * held t + 217652 /\ l <= 29076 * Z.of_nat (p_k (vc_params self)) + 131 * held t + 221511 /\
      length (snd r) = p_k (vc_params self) /\ Forall (fun x => length x = 128%nat) (snd r)).
  Proof.
    intros HG HC Hb. unfold verify_inner_product.
    eapply uses_bind; [apply (uses_loop _ ipst (fun st => 131 * held (snd (fst st))) 29126 29076) with (i := 0%nat)|].
    { intros i st x _ H. apply U_ip_round, H. }
    { unfold ipst. cbn [fst snd]. split; [exact HC|]. split; [exact HG|]. split; [reflexivity|constructor]. }
    cbv beta. rewrite seq_length. cbn [fst snd]. intros [[pvs t'] packed] w1 l1 (E1 & E2 & (P1 & P2 & P3 & P4)). cbn [fst snd] in *. pose proof (held_ge t').
    ucall U_witness_of. intros gn ? ? ?. apply U_g_constantb. intro g.
    eapply uses_bind; [apply (uses_foldM _ (fun _ => True) 43528 44300); [|exact I]|].
    { intros _ [j pv] _ _. ustep. eapply uses_weaken; [apply U_ip_final; rewrite Forall_forall in Hb; apply Hb; eapply nth_error_In; eassumption|intros; uend]. }
    cbv beta. unfold enumerate. rewrite combine_length, seq_length. intros ? wx lx (E5 & E6 & _). ustep. cbn [snd].
    assert (HZ : Z.of_nat (Nat.min (length pvs) (length pvs)) <= 5) by lia.
    split; [uend|]. split; [uend|]. split; assumption.
  Qed.
  Lemma U_opening_point g t bs from : gad t -> uses (opening_point one g t bs from)
    (fun r w l => w + 131 * held (snd r) <= 14598 + 131 * held t /\ l + 131 * held (snd r) <= 14854 + 131 * held t /\ gad (snd r)).
  Proof.
    intro H. unfold opening_point. apply U_bits_atb. intros b Hb. ucall (@U_multiply C one). rewrite Hb. intros p ? ? ?. ucall (U_commit_point t p H). intros ? ? ? (? & ? & ?). ustep. cbn [snd]. split; [uend|]. split; [uend|]. assumption.
  Qed.
  Lemma U_witness_commit self s f t : gad t -> uses (witness_commit one self s f t)
    (fun r w l => w + 131 * held (snd r) <= 274 + 131 * held t /\ l + 131 * held (snd r) <= 273 + 131 * held t /\ gad (snd r)).
  Proof.
    intro H. unfold witness_commit. ucall U_witness_of. intros p ? ? ?. ucall (U_commit_point t p H). intros ? ? ? (? & ? & ?). ustep. cbn [snd]. split; [uend|]. split; [uend|]. assumption.
  Qed.

  Ltac wcommit := match goal with Hg : gad ?t |- CostP.uses (bind (witness_commit _ _ _ _ ?t) _) _ =>
    ucall (U_witness_commit); [exact Hg|]; clear Hg; intros [? ?] ? ? (? & ? & Hg); cbn [snd] in *; cbv beta iota end.
  Ltac opening := match goal with Hg : gad ?t |- CostP.uses (bind (opening_point _ _ ?t _ _) _) _ =>
    ucall (U_opening_point); [exact Hg|]; clear Hg; intros [? ?] ? ? (? & ? & Hg); cbn [snd] in *; cbv beta iota end.
  Ltac challenge HL := match goal with Hg : gad ?t |- CostP.uses (bind (namespace _ (g_get_challenge _ ?t)) _) _ =>
    pose proof (held_ge t); ucall (@U_get_challenge F one H256); [exact Hg|]; clear Hg; let HH := fresh "HH" in intros [? ?] ? ? (? & ? & HL & Hg & HH); cbn [fst snd] in *; cbv beta iota end.
  Lemma U_verify_proof self bc kc ol nd nl : uses (g_verify_proof one self bc kc ol nd nl)
    (upto (351505 + 29130 * Z.of_nat (p_k (vc_params self))) (357150 + 29082 * Z.of_nat (p_k (vc_params self)))).
  Proof.
    unfold g_verify_proof. cbv zeta.
    ucall (@U_gadget_new F one). intros t0 ? ? (? & ? & Hg & ?). ucall (U_commit_point t0 kc Hg). clear Hg. intros t1 ? ? (? & ? & Hg).
    wcommit. challenge L1. do 3 wcommit. challenge L2. wcommit. challenge L3. wcommit. apply U_g_constantb. intro g. do 3 opening. wcommit. do 3 opening. wcommit. opening. challenge LZ4.
    ucall U_witness_of. intros ? ? ? ?. ucall U_point_equal. intros ? ? ? ?. ucall U_witness_of. intros ? ? ? ?. ucall U_point_equal. intros ? ? ? ?.
    do 4 (ucall U_endo_chain; intros ? ? ? ?). cbn [length] in *.
    eapply (uses_bind _ _ _ (fun b w l => w <= 0 /\ l <= 0 /\ Forall (fun x => length x = 256%nat) b)).
    { eapply uses_weaken; [apply (uses_mapM _ (fun x => length x = 256%nat) 0 0)|cbv beta; intros ? ? ? (? & ? & ? & ?); split; [lia|]; split; [lia|assumption]].
      intros x _. unfold bits_at. destruct (_ <=? _)%nat eqn:E; [|apply uses_panic]. apply Nat.leb_le in E. unfold unwrap. ustep. rewrite firstn_length, skipn_length. lia. }
    intros b ? ? (? & ? & Hb).
    match goal with Hg : gad ?t |- CostP.uses (bind (namespace _ (verify_inner_product _ _ _ ?t ?cl _)) _) _ =>
      ucall (U_inner_product self bc t cl b Hg (le_n 5) Hb) end.
    intros [gn packed] ? ? (? & ? & HP & HB). cbn [snd] in HP, HB.
    ucall U_point_equal. intros ? ? ? ?. eapply (uses_bind _ _ _ (upto 2 3)).
    { apply U_bits_atb. intros ? _. ustep. eapply uses_weaken; [apply (@U_equal_unless F)|]. rewrite L3. change (chunks 128) with 1. auto. }
    intros ? ? ? ?. ucall U_point_equal. intros ? ? ? ?.
    eapply uses_bind; [apply (uses_foldM _ (fun _ => True) 4 6); [|exact I]|].
    { intros ? [ii cc] Hi _. assert (Hc : length cc = 128%nat) by (rewrite Forall_forall in HB; apply HB; unfold enumerate in Hi; exact (in_combine_r _ _ _ _ Hi)).
      apply U_bits_atb. intros ? _. ucall (@U_equal_unless F). rewrite Hc. intros ? ? ? ?. apply U_bits_atb. intros ? _. ustep. eapply uses_weaken; [apply (@U_equal_unless F)|]. rewrite Hc. change (chunks 128) with 1 in *. intros. uend. }
    cbv beta. unfold enumerate. rewrite combine_length, seq_length, Nat.min_id, HP. intros ? ? ? (? & ? & _).
    eapply (uses_bind _ _ _ (upto 2 3)).
    { apply U_bits_atb. intros ? _. ustep. eapply uses_weaken; [apply (@U_equal_unless F)|]. rewrite L2. change (chunks 128) with 1. auto. }
    intros ? ? ? ?. eapply (uses_bind _ _ _ (upto 2 3)).
    { apply U_bits_atb. intros ? _. ustep. eapply uses_weaken; [apply (@U_equal_unless F)|]. rewrite L1. change (chunks 128) with 1. auto. }
    intros ? ? ? ?. apply U_bits_atb. intros ? _. ustep. eapply uses_weaken; [apply (@U_equal_unless F)|]. rewrite L3. change (chunks 128) with 1. intros. uend.
  Qed.

  Lemma U_input_bits s bs : uses (input_bits s bs) (fun l w' l' => w' <= Z.of_nat (length bs) /\ l' <= Z.of_nat (length bs) /\ length l = length bs).
  Proof.
    unfold input_bits. ustep. eapply uses_weaken; [apply (uses_mapM _ (fun _ => True) 1 1); intros; ustep; eapply uses_weaken; [apply U_bit_input|intros; uend]|].
    cbv beta. intros ? ? ? (? & ? & ? & _). lia.
  Qed.
  Lemma U_wit_bits s bs : uses (witness_bits s bs) (fun l w' l' => w' <= 2 * Z.of_nat (length bs) /\ l' <= 2 * Z.of_nat (length bs) /\ length l = length bs).
  Proof.
    unfold witness_bits. ustep. eapply uses_weaken; [apply (uses_mapM _ (fun _ => True) 2 2); intros; ustep; eapply uses_weaken; [apply U_bit_alloc|intros; uend]|].
    cbv beta. intros ? ? ? (? & ? & ? & _). lia.
  Qed.
  Lemma U_check_bits s bs : uses (check_bits s bs) (upto (2 * Z.of_nat (length bs)) (3 * Z.of_nat (length bs))).
  Proof.
    unfold check_bits. ustep. eapply uses_weaken; [apply (uses_foldM _ (fun _ => True) 2 3); [|exact I]; intros; ustep; eapply uses_weaken; [apply U_bit_check|intros; uend]|].
    cbv beta. intros. uend.
  Qed.
  Lemma U_constrain_payload bc b o : uses (constrain_payload_bit one bc b o) (upto 2 3).
  Proof.
    unfold constrain_payload_bit. cbv zeta. repeat ustep. eapply (uses_bind _ _ _ (upto 0 1)); [destruct b; ustep; uend|]. intros ? ? ? ?. repeat ustep. uend.
  Qed.
  Lemma U_commit_bits gens bits start : uses (commit_bits one gens bits start) (upto (14 * Z.of_nat (length bits)) (14 * Z.of_nat (length bits))).
  Proof.
    unfold commit_bits. eapply uses_weaken; [apply (uses_foldM _ (fun _ => True) 14 14); [|exact I]; intros ? [? [? ?]] _ _; ustep; eapply uses_weaken; [apply U_add_cond_incomplete|intros; uend]|].
    cbv beta. rewrite combine_length. intros. uend.
  Qed.

  (** the blank circuit *)
  Variables (P : Params C) (inner : RecursiveCircuit F) (payload : list Z) (wi li : Z).
  Hypothesis HI : inner_adds_at_most inner (length (bytes_bits payload)) wi li.
  Let k := p_k P.
  Let p := Z.of_nat (length (bytes_bits payload)).
  Let p' := Z.of_nat (length (base_payload inner)).
  Lemma U_blank : uses (vc_synthesize one (mkVC P None inner None payload None None None None))
    (upto (461141 + 38922 * Z.of_nat k + 3 * p + 18 * p' + wi) (472683 + 39387 * Z.of_nat k + 4 * p + 19 * p' + li)).
  Proof.
    unfold vc_synthesize. cbv zeta. cbn [vc_params vc_new_payload vc_old_leftovers vc_new_leftovers vc_deferred vc_base_case vc_proof vc_inner]. fold k.
    ucall U_input_bits. intros pb ? ? (? & ? & LP). ucall U_input_bits. rewrite repeat_length. intros l1 ? ? (? & ? & LL1). ucall U_input_bits. rewrite repeat_length. intros l2 ? ? (? & ? & LL2).
    ucall U_input_bits. rewrite repeat_length. intros df ? ? (? & ? & LD).
    ucall U_check_bits. intros ? ? ? ?. ucall U_check_bits. intros ? ? ? ?. ucall U_check_bits. intros ? ? ? ?. ucall U_check_bits. intros ? ? ? ?.
    ucall (@U_bit_alloc F). intros bc ? ? ?. ustep. match goal with x : (_ * _)%type |- _ => destruct x as [gx gy] end.
    ucall U_wit_bits. intros op ? ? (? & ? & LO).
    eapply (uses_nsb _ _ _ _ (upto (2 * p') (3 * p'))).
    { eapply uses_weaken; [apply (uses_foldM _ (fun _ => True) 2 3); [|exact I]; intros ? [b o] _ _; eapply uses_weaken; [apply U_constrain_payload|intros; uend]|].
      cbv beta. rewrite combine_length. intros. unfold p'. uend. }
    intros ? ? ? ?. ucall U_wit_bits. rewrite repeat_length. intros ol ? ? (? & ? & LOL). ustep. ucall U_wit_bits. intros od ? ? (? & ? & LOD). ustep.
    match goal with Hb : (length od =? length df)%nat = true |- _ => apply Nat.eqb_eq in Hb; rename Hb into HE end. ustep.
    ucall U_commit_bits. rewrite !app_length. intros kc ? ? ?. ucall (@U_verify_deferred F one). intros ? ? ? ?. ucall U_verify_proof. cbn [vc_params]. fold k. intros ? ? ? ?.
    eapply (uses_bind _ _ _ (upto (2 * (Z.of_nat k + 1)) (3 * (Z.of_nat k + 1)))).
    { apply U_bits_atb. intros dc HD. ustep. ustep. eapply uses_weaken; [apply (@U_equal_unless F)|]. rewrite HD. intros ? ? ? ?. assert (HCh : chunks (128 * k) <= Z.of_nat k + 1) by (unfold chunks; apply Z.div_le_upper_bound; lia). uend. }
    intros ? ? ? ?. eapply (uses_bind _ _ _ (upto 2 3)).
    { apply U_bits_atb. intros dy HD. apply U_bits_atb. intros oy _. ustep. eapply uses_weaken; [apply (@U_equal_unless F)|]. rewrite HD. change (chunks 128) with 1. auto. }
    intros ? ? ? ?. ustep. eapply uses_weaken; [apply adds_uses, HI; assumption|]. cbv beta. intros ? ? ? ?.
    unfold leftovers_bits, deferred_bits, p, p' in *. uend.
  Qed.
End Circuit.
