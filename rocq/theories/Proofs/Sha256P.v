(** The SHA-256 circuit computes SHA-256. *)
From Coq Require Import String List Bool ZArith Lia.
From Verif Require Import Model.FieldTrait Model.Circuits Model.Num Model.Boolean Model.UInt Model.Sha256
  Spec.FieldLaws Spec.CircuitSpec Spec.BoolSpec Spec.UIntSpec Spec.Sha256Spec Proofs.CircuitP Proofs.LcP
  Proofs.BoolP Proofs.UnpackP Proofs.AlwaysP Proofs.WordP Proofs.UIntP Proofs.UIntArithP.
Import ListNotations.
Open Scope Z_scope. Open Scope list_scope.

(** the round constants *)
Lemma K_eq : K = ROUND_CONSTANTS. Proof. vm_compute. reflexivity. Qed.
Lemma H0_eq : H0 = IV. Proof. vm_compute. reflexivity. Qed.
Lemma K_words : Forall (in_word 32) K.
Proof. rewrite K_eq. unfold ROUND_CONSTANTS. repeat constructor; discriminate. Qed.
Lemma IV_words : Forall (in_word 32) IV.
Proof. unfold IV. repeat constructor; discriminate. Qed.

(** sums *)
Lemma ADD_app xs ys : ADD (xs ++ ys) = ADD [ADD xs; ADD ys].
Proof.
  unfold ADD. cbn [fold_right]. rewrite Z.add_0_r, <- Z.add_mod by lia. f_equal.
  induction xs as [|x xs IH]; cbn [app fold_right]; [reflexivity|]. rewrite IH. ring.
Qed.
Lemma ADD_add xs s : fold_right Z.add 0 xs mod 2 ^ 32 = s mod 2 ^ 32 -> ADD xs = s mod 2 ^ 32.
Proof. auto. Qed.

Section Generic.
  Context {F : Field} (one : Var).
  Variable J : forall A, CS F A -> (A -> Prop) -> Prop.
  Arguments J {A}.
  Variable R : UInt -> Z -> Prop.
  Variable RB : Boolean -> bool -> Prop.
  Hypothesis J_ret : forall A (a : A) (Q : A -> Prop), Q a -> J (ret a) Q.
  Hypothesis J_bind : forall A B (m : CS F A) (f : A -> CS F B) (Q1 : A -> Prop) (Q : B -> Prop),
    J m Q1 -> (forall a, Q1 a -> J (f a) Q) -> J (bind m f) Q.
  Hypothesis J_weaken : forall A (m : CS F A) (Q1 Q : A -> Prop), J m Q1 -> (forall a, Q1 a -> Q a) -> J m Q.
  Hypothesis J_ns : forall A s (m : CS F A) (Q : A -> Prop), J m Q -> J (namespace s m) Q.
  Hypothesis R_xor : forall a b x y, R a x -> R b y -> J (u32_xor a b) (fun o => R o (Z.lxor x y)).
  Hypothesis R_ch : forall a b c x y z, R a x -> R b y -> R c z -> J (u32_sha256_ch one a b c) (fun o => R o (CH x y z)).
  Hypothesis R_maj : forall a b c x y z, R a x -> R b y -> R c z -> J (u32_sha256_maj one a b c) (fun o => R o (MAJ x y z)).
  Hypothesis R_add : forall ops zs, (2 <= length ops <= 10)%nat -> Forall2 R ops zs ->
    J (u32_addmany one ops) (fun o => R o (ADD zs)).
  Hypothesis R_const : forall z, in_word 32 z -> R (u_constant 32 z) z.
  Hypothesis R_rotr : forall u z k, R u z -> R (u32_rotr u k) (ROTR (Z.of_nat (k mod 32)) z).
  Hypothesis R_shr : forall u z k, R u z -> R (u32_shr u k) (SHR (Z.of_nat (k mod 32)) z).
  Hypothesis R_bits : forall u z, R u z -> Forall2 RB (u_bits u) (bits_of 32 z).
  Hypothesis R_from : forall bits bs, length bits = 32%nat -> Forall2 RB bits bs ->
    J (u32_from_bits_be bits) (fun u => R u (bits_val (rev bs))).
  Hypothesis RB_const : forall c, RB (Constant c) c.

  Lemma J_index {A B} (l : list A) i a (k : A -> CS F B) Q :
    nth_error l i = Some a -> J (k a) Q -> J (bind (index l i) k) Q.
  Proof. intros H H1. unfold index. rewrite H. exact H1. Qed.
  Lemma J_assert {B} b (k : unit -> CS F B) Q : b = true -> J (k tt) Q -> J (bind (assert_ b) k) Q.
  Proof. intros -> H. exact H. Qed.
  Lemma F2_nth {A B} (P : A -> B -> Prop) l l' d i : Forall2 P l l' -> (i < length l)%nat ->
    exists a, nth_error l i = Some a /\ P a (nth i l' d).
  Proof.
    intro H. revert i. induction H as [|a b l l' Hab _ IH]; intros i Hi; [simpl in Hi; lia|].
    destruct i as [|i]; [exists a; split; [reflexivity|exact Hab]|]. simpl in *. apply IH. lia.
  Qed.

  Lemma J_xor_ns {B} s a b x y (k : UInt -> CS F B) Q : R a x -> R b y ->
    (forall o, R o (Z.lxor x y) -> J (k o) Q) -> J (bind (namespace s (u32_xor a b)) k) Q.
  Proof. intros Ha Hb H. eapply J_bind; [apply J_ns, (R_xor _ _ _ _ Ha Hb)|]. exact H. Qed.
  Lemma J_add_ns {B} s ops zs (k : UInt -> CS F B) Q : (2 <= length ops <= 10)%nat -> Forall2 R ops zs ->
    (forall o, R o (ADD zs) -> J (k o) Q) -> J (bind (namespace s (u32_addmany one ops)) k) Q.
  Proof. intros Ha Hb H. eapply J_bind; [apply J_ns, (R_add _ _ Ha Hb)|]. exact H. Qed.

  (** the message schedule *)
  Lemma extension_step w W i : (16 <= i)%nat -> length w = i -> Forall2 R w W ->
    J (w_extension one w i) (fun w' => length w' = S i /\ Forall2 R w' (schedule_step W i)).
  Proof.
    intros Hi HL HW. unfold w_extension. apply J_ns.
    destruct (F2_nth _ _ _ 0 (i - 15) HW ltac:(lia)) as (w15 & E15 & H15).
    destruct (F2_nth _ _ _ 0 (i - 2) HW ltac:(lia)) as (w2 & E2 & H2).
    destruct (F2_nth _ _ _ 0 (i - 16) HW ltac:(lia)) as (w16 & E16 & H16).
    destruct (F2_nth _ _ _ 0 (i - 7) HW ltac:(lia)) as (w7 & E7 & H7).
    eapply J_index; [exact E15|].
    eapply J_xor_ns; [apply R_rotr, H15|apply R_rotr, H15|]. intros s0 Hs0.
    eapply J_xor_ns; [exact Hs0|apply R_shr, H15|]. clear s0 Hs0. intros s0 Hs0.
    eapply J_index; [exact E2|].
    eapply J_xor_ns; [apply R_rotr, H2|apply R_rotr, H2|]. intros s1 Hs1.
    eapply J_xor_ns; [exact Hs1|apply R_shr, H2|]. clear s1 Hs1. intros s1 Hs1.
    eapply J_index; [exact E16|]. eapply J_index; [exact E7|].
    eapply J_add_ns; [simpl; lia|repeat constructor; eassumption|].
    intros o Ho. apply J_ret. split; [rewrite app_length; simpl; lia|].
    unfold schedule_step. apply Forall2_app; [exact HW|]. constructor; [|constructor].
    match goal with |- R o (ADD ?b) => match type of Ho with R o (ADD ?a) => replace (ADD b) with (ADD a) end end; [exact Ho|].
    unfold ADD. f_equal. cbn [fold_right].
    change (Z.of_nat (7 mod 32)) with 7. change (Z.of_nat (18 mod 32)) with 18. change (Z.of_nat (3 mod 32)) with 3.
    change (Z.of_nat (17 mod 32)) with 17. change (Z.of_nat (19 mod 32)) with 19. change (Z.of_nat (10 mod 32)) with 10.
    fold (sigma0 (nth (i - 15) W 0)). fold (sigma1 (nth (i - 2) W 0)). ring.
  Qed.
  Lemma extension_loop n : forall i w W, (16 <= i)%nat -> length w = i -> Forall2 R w W ->
    J (foldM (w_extension one) (seq i n) w)
      (fun w' => length w' = (i + n)%nat /\ Forall2 R w' (fold_left schedule_step (seq i n) W)).
  Proof.
    induction n as [|n IH]; intros i w W Hi HL HW; cbn [seq foldM fold_left].
    - apply J_ret. split; [lia|exact HW].
    - eapply J_bind; [apply extension_step; eassumption|]. intros w' [HL' HW'].
      replace (i + S n)%nat with (S i + n)%nat by lia. apply IH; [lia|exact HL'|exact HW'].
  Qed.

  (** the rounds *)
  Definition Rm (m : Maybe) (z : Z) : Prop :=
    match m with
    | Concrete u => R u z
    | Deferred l => exists zs, Forall2 R l zs /\ z = ADD zs /\ (2 <= length l <= 9)%nat
    end.
  Definition is_deferred (m : Maybe) : Prop := match m with Deferred _ => True | _ => False end.
  Definition Rst (st : State) (z : working) : Prop :=
    let '(a, b, c, d, e, f, g, h) := z in
    Rm (s_a st) a /\ R (s_b st) b /\ R (s_c st) c /\ R (s_d st) d /\
    Rm (s_e st) e /\ R (s_f st) f /\ R (s_g st) g /\ R (s_h st) h.
  Lemma J_compute {B} s m z (k : UInt -> CS F B) Q : Rm m z -> (forall u, R u z -> J (k u) Q) ->
    J (bind (compute one s m []) k) Q.
  Proof.
    intros Hm H. unfold compute. eapply J_bind; [apply J_ns|exact H].
    destruct m as [l|u].
    - destruct Hm as (zs & H1 & -> & H3). rewrite app_nil_r. apply R_add; [lia|exact H1].
    - apply J_ret. exact Hm.
  Qed.
  Lemma J_compute1 {B} s m z u0 z0 (k : UInt -> CS F B) Q : Rm m z -> is_deferred m -> R u0 z0 ->
    (forall u, R u (ADD [z; z0]) -> J (k u) Q) ->
    J (bind (compute one s m [u0]) k) Q.
  Proof.
    intros Hm HD H0 H. unfold compute. eapply J_bind; [apply J_ns|exact H].
    destruct m as [l|u]; [|destruct HD].
    destruct Hm as (zs & H1 & -> & H3).
    assert (E : ADD [ADD zs; z0] = ADD (zs ++ [z0])).
    { rewrite ADD_app. unfold ADD. cbn [fold_right]. rewrite !Z.add_0_r.
      rewrite (Z.add_mod (fold_right Z.add 0 zs mod 2 ^ 32) z0) by lia. rewrite Z.mod_mod by lia.
      rewrite (Z.add_mod (fold_right Z.add 0 zs mod 2 ^ 32) (z0 mod 2 ^ 32)) by lia. rewrite !Z.mod_mod by lia. reflexivity. }
    rewrite E. apply R_add; [rewrite app_length; simpl; lia|].
    apply Forall2_app; [exact H1|]. repeat constructor. exact H0.
  Qed.
  Lemma ADD_perm xs ys : fold_right Z.add 0 xs = fold_right Z.add 0 ys -> ADD xs = ADD ys.
  Proof. intro H. unfold ADD. rewrite H. reflexivity. Qed.

  Lemma round_step w W st z i : (i < 64)%nat -> length w = 64%nat -> Forall2 R w W -> Rst st z ->
    J (compression_round one w st i)
      (fun st' => Rst st' (round W z i) /\ is_deferred (s_a st') /\ is_deferred (s_e st')).
  Proof.
    intros Hi HL HW HS. unfold compression_round. apply J_ns.
    destruct z as [[[[[[[a b] c] d] e] f] g] h]. destruct HS as (Ha & Hb & Hc & Hd & He & Hf & Hg & Hh).
    destruct (F2_nth _ _ _ 0 i HW ltac:(lia)) as (wi & Ei & Hwi).
    assert (Ek : nth_error ROUND_CONSTANTS i = Some (nth i K 0)).
    { rewrite K_eq. apply nth_error_nth'. exact Hi. }
    assert (Hk : in_word 32 (nth i K 0)).
    { pose proof K_words as HK. rewrite Forall_forall in HK. apply HK. apply nth_In. rewrite K_eq. exact Hi. }
    eapply J_compute; [exact He|]. intros ne Hne.
    eapply J_xor_ns; [apply R_rotr, Hne|apply R_rotr, Hne|]. intros s1 Hs1.
    eapply J_xor_ns; [exact Hs1|apply R_rotr, Hne|]. clear s1 Hs1. intros s1 Hs1.
    eapply J_bind; [apply J_ns, (R_ch _ _ _ _ _ _ Hne Hf Hg)|]. intros ch Hch. cbv beta in Hch.
    eapply J_index; [exact Ek|]. eapply J_index; [exact Ei|]. cbv zeta.
    eapply J_compute; [exact Ha|]. intros na Hna.
    eapply J_xor_ns; [apply R_rotr, Hna|apply R_rotr, Hna|]. intros s0 Hs0.
    eapply J_xor_ns; [exact Hs0|apply R_rotr, Hna|]. clear s0 Hs0. intros s0 Hs0.
    eapply J_bind; [apply J_ns, (R_maj _ _ _ _ _ _ Hna Hb Hc)|]. intros maj Hmaj. cbv beta in Hmaj.
    change (Z.of_nat (6 mod 32)) with 6 in *. change (Z.of_nat (11 mod 32)) with 11 in *. change (Z.of_nat (25 mod 32)) with 25 in *.
    change (Z.of_nat (2 mod 32)) with 2 in *. change (Z.of_nat (13 mod 32)) with 13 in *. change (Z.of_nat (22 mod 32)) with 22 in *.
    fold (Sigma1 e) in Hs1. fold (Sigma0 a) in Hs0.
    apply J_ret. split; [|split; exact I].
    unfold Rst, round. cbn [s_a s_b s_c s_d s_e s_f s_g s_h].
    assert (HT1 : Forall2 R [s_h st; s1; ch; u_constant 32 (nth i K 0); wi]
                    [h; Sigma1 e; CH e f g; nth i K 0; nth i W 0]).
    { repeat constructor; auto. }
    assert (HT2 : Forall2 R [s0; maj] [Sigma0 a; MAJ a b c]) by (repeat constructor; auto).
    split.
    { exists ([h; Sigma1 e; CH e f g; nth i K 0; nth i W 0] ++ [Sigma0 a; MAJ a b c]).
      split; [apply Forall2_app; assumption|]. split; [symmetry; apply ADD_app|simpl; lia]. }
    split; [exact Hna|]. split; [exact Hb|]. split; [exact Hc|].
    split.
    { exists ([h; Sigma1 e; CH e f g; nth i K 0; nth i W 0] ++ [d]).
      split; [apply Forall2_app; [exact HT1|repeat constructor; exact Hd]|].
      split; [|simpl; lia]. rewrite ADD_app.
      unfold ADD. cbn [fold_right]. rewrite !Z.add_0_r.
      set (t := h + _). rewrite (Z.add_comm (t mod _)).
      rewrite (Z.add_mod d (t mod 2 ^ 32)), (Z.add_mod (d mod 2 ^ 32) (t mod 2 ^ 32)) by lia. rewrite !Z.mod_mod by lia. reflexivity. }
    split; [exact Hne|]. split; [exact Hf|]. exact Hg.
  Qed.
  Lemma rounds_loop w W n : forall i st z, (i + n = 64)%nat -> length w = 64%nat -> Forall2 R w W -> Rst st z ->
    J (foldM (compression_round one w) (seq i n) st)
      (fun st' => Rst st' (fold_left (round W) (seq i n) z) /\
        ((is_deferred (s_a st) /\ is_deferred (s_e st)) \/ n <> 0%nat ->
         is_deferred (s_a st') /\ is_deferred (s_e st'))).
  Proof.
    induction n as [|n IH]; intros i st z Hi HL HW HS; cbn [seq foldM fold_left].
    - apply J_ret. split; [exact HS|]. intros [H|H]; [exact H|congruence].
    - eapply J_bind; [apply (round_step w W st z i); [lia|assumption..]|]. intros st' (H1 & H2 & H3).
      eapply J_weaken; [apply (IH (S i) st' (round W z i)); [lia|assumption..]|].
      intros st'' [H4 H5]. split; [exact H4|]. intros _. apply H5. left. split; assumption.
  Qed.

  (** blocks *)
  Lemma chunks_length {A} n k (l : list A) : (0 < n)%nat -> length l = (n * k)%nat ->
    chunks n l = map (fun i => nth_chunk n i l) (seq 0 k).
  Proof.
    intros Hn HL. unfold chunks, nth_chunk. rewrite HL.
    replace ((n * k + (n - 1)) / n)%nat with k; [reflexivity|].
    apply (Nat.div_unique _ _ _ (n - 1)); lia.
  Qed.
  Lemma J_mapM {A B X Y} (P : A -> X -> Prop) (P' : B -> Y -> Prop) (f : X -> Y) (m : A -> CS F B) xs ys :
    (forall a x, P a x -> J (m a) (fun o => P' o (f x))) -> Forall2 P xs ys ->
    J (mapM m xs) (fun os => Forall2 P' os (map f ys)).
  Proof.
    intros H. induction 1 as [|a x xs ys Ha _ IH]; simpl.
    - apply J_ret. constructor.
    - eapply J_bind; [apply (H _ _ Ha)|]. intros b Hb. eapply J_bind; [exact IH|].
      intros bs Hbs. apply J_ret. constructor; assumption.
  Qed.
  Lemma chunk_length {A} n i k (l : list A) : (i < k)%nat -> length l = (n * k)%nat -> length (nth_chunk n i l) = n.
  Proof. intros Hi HL. unfold nth_chunk. rewrite firstn_length, skipn_length, HL. nia. Qed.
  Lemma chunks_F2 {A B} (P : A -> B -> Prop) n k l l' : Forall2 P l l' -> length l = (n * k)%nat ->
    Forall2 (fun a b => length a = n /\ Forall2 P a b)
      (map (fun i => nth_chunk n i l) (seq 0 k)) (map (fun i => nth_chunk n i l') (seq 0 k)).
  Proof.
    intros HP HL. assert (G : Forall (fun i => (i < k)%nat) (seq 0 k)).
    { apply Forall_forall. intros i Hi. apply in_seq in Hi. lia. }
    induction G as [|i js Hi _ IH]; simpl; constructor; [|exact IH].
    split; [apply (chunk_length n i k); assumption|]. unfold nth_chunk. apply F2_firstn, F2_skipn, HP.
  Qed.

  Lemma schedule_unfold bs : schedule bs = fold_left schedule_step (seq 16 48) (block_words bs).
  Proof. unfold schedule. reflexivity. Qed.
  Lemma compression input bs cur H : length input = 512%nat -> Forall2 RB input bs ->
    length cur = 8%nat -> Forall2 R cur H ->
    J (sha256_compression_function one input cur)
      (fun o => length o = 8%nat /\ Forall2 R o (hash_block H bs)).
  Proof.
    intros HL HB HC HR. unfold sha256_compression_function.
    apply J_assert; [now apply Nat.eqb_eq|]. apply J_assert; [now apply Nat.eqb_eq|].
    rewrite (chunks_length 32 16) by (lia || exact HL).
    eapply J_bind.
    { eapply J_mapM with (f := fun b => bits_val (rev b)); [|apply (chunks_F2 RB 32 16 input bs HB HL)].
      intros a x [H1 H2]. apply R_from; assumption. }
    intros w0 Hw0. cbv beta in Hw0. rewrite map_map in Hw0.
    assert (HW0 : length w0 = 16%nat) by (rewrite (F2_length _ _ _ Hw0), map_length, seq_length; reflexivity).
    eapply J_bind; [apply (extension_loop 48 16 w0 (block_words bs)); [lia|exact HW0|exact Hw0]|].
    intros w [HWL HW]. rewrite <- schedule_unfold in HW.
    apply J_assert; [now apply Nat.eqb_eq|].
    destruct (F2_nth _ _ _ 0 0%nat HR ltac:(lia)) as (u0 & E0 & R0). eapply J_index; [exact E0|].
    destruct (F2_nth _ _ _ 0 1%nat HR ltac:(lia)) as (u1 & E1 & R1). eapply J_index; [exact E1|].
    destruct (F2_nth _ _ _ 0 2%nat HR ltac:(lia)) as (u2 & E2 & R2). eapply J_index; [exact E2|].
    destruct (F2_nth _ _ _ 0 3%nat HR ltac:(lia)) as (u3 & E3 & R3). eapply J_index; [exact E3|].
    destruct (F2_nth _ _ _ 0 4%nat HR ltac:(lia)) as (u4 & E4 & R4). eapply J_index; [exact E4|].
    destruct (F2_nth _ _ _ 0 5%nat HR ltac:(lia)) as (u5 & E5 & R5). eapply J_index; [exact E5|].
    destruct (F2_nth _ _ _ 0 6%nat HR ltac:(lia)) as (u6 & E6 & R6). eapply J_index; [exact E6|].
    destruct (F2_nth _ _ _ 0 7%nat HR ltac:(lia)) as (u7 & E7 & R7). eapply J_index; [exact E7|].
    eapply J_bind.
    { apply (rounds_loop w (schedule bs) 64 0 _
        (nth 0 H 0, nth 1 H 0, nth 2 H 0, nth 3 H 0, nth 4 H 0, nth 5 H 0, nth 6 H 0, nth 7 H 0));
        [lia|exact HWL|exact HW|]. unfold Rst. cbn [s_a s_b s_c s_d s_e s_f s_g s_h Rm]. tauto. }
    intros st [HS HD]. cbv beta in HS, HD. destruct HD as [HDa HDe]; [right; discriminate|].
    unfold hash_block. cbv zeta.
    destruct (fold_left (round (schedule bs)) (seq 0 64) _) as [[[[[[[a b] c] d] e] f] g] h].
    destruct HS as (Ha & Hb & Hc & Hd & He & Hf & Hg & Hh).
    eapply J_compute1; [exact Ha|exact HDa|exact R0|]. intros n0 N0.
    eapply J_add_ns; [simpl; lia|repeat constructor; [exact R1|exact Hb]|]. intros n1 N1.
    eapply J_add_ns; [simpl; lia|repeat constructor; [exact R2|exact Hc]|]. intros n2 N2.
    eapply J_add_ns; [simpl; lia|repeat constructor; [exact R3|exact Hd]|]. intros n3 N3.
    eapply J_compute1; [exact He|exact HDe|exact R4|]. intros n4 N4.
    eapply J_add_ns; [simpl; lia|repeat constructor; [exact R5|exact Hf]|]. intros n5 N5.
    eapply J_add_ns; [simpl; lia|repeat constructor; [exact R6|exact Hg]|]. intros n6 N6.
    eapply J_add_ns; [simpl; lia|repeat constructor; [exact R7|exact Hh]|]. intros n7 N7.
    assert (SW : forall u x y, R u (ADD [x; y]) -> R u (ADD [y; x])).
    { intros u x y. rewrite (ADD_perm [x; y] [y; x]); [auto|]. cbn [fold_right]. ring. }
    apply J_ret. split; [reflexivity|]. repeat constructor; auto.
  Qed.

  Lemma into_bits us zs : Forall2 R us zs -> Forall2 RB (flat_map u_into_bits_be us) (digest_bits zs).
  Proof.
    induction 1 as [|u z us zs Hu _ IH]; cbn [flat_map digest_bits]; [constructor|].
    apply Forall2_app; [|exact IH]. unfold u_into_bits_be. apply F2_rev, R_bits, Hu.
  Qed.
  Lemma iv_rel : Forall2 R get_sha256_iv H0.
  Proof.
    rewrite H0_eq. unfold get_sha256_iv. pose proof IV_words as H. induction H; simpl; constructor; auto.
  Qed.
  Lemma iv_len : length get_sha256_iv = 8%nat. Proof. reflexivity. Qed.

  Lemma block_no_padding input bs : length input = 512%nat -> Forall2 RB input bs ->
    J (sha256_block_no_padding one input) (fun o => Forall2 RB o (digest_bits (hash_block H0 bs))).
  Proof.
    intros HL HB. unfold sha256_block_no_padding. apply J_assert; [now apply Nat.eqb_eq|].
    eapply J_bind; [apply (compression input bs _ H0 HL HB iv_len iv_rel)|]. intros o [_ Ho].
    apply J_ret. apply into_bits, Ho.
  Qed.

  (** padding *)
  Lemma pad_zeros_spec fuel : forall l k, ((length l + 64 + k) mod 512 = 0)%nat -> (k < 512)%nat -> (k <= fuel)%nat ->
    pad_zeros fuel l = l ++ repeat (Constant false) k.
  Proof.
    induction fuel as [|fuel IH]; intros l k Hm Hk Hf; cbn [pad_zeros].
    - replace k with 0%nat by lia. symmetry. apply app_nil_r.
    - destruct (Nat.eqb_spec ((length l + 64) mod 512) 0) as [E|E].
      + assert (k = 0)%nat; [|subst; symmetry; apply app_nil_r].
        destruct k as [|k]; [reflexivity|]. exfalso.
        rewrite <- Nat.add_mod_idemp_l, E in Hm by discriminate. rewrite Nat.add_0_l, Nat.mod_small in Hm by lia. lia.
      + destruct k as [|k].
        { rewrite Nat.add_0_r in Hm. congruence. }
        rewrite (IH _ k).
        * rewrite <- app_assoc. reflexivity.
        * rewrite app_length. cbn [length]. etransitivity; [|exact Hm]. apply (f_equal (fun x => (x mod 512)%nat)). lia.
        * lia.
        * lia.
  Qed.
  Lemma pad_rel input bs : Forall2 RB input bs ->
    Forall2 RB (sha256_pad input) (padded_message bs) /\ (length (sha256_pad input) mod 512 = 0)%nat.
  Proof.
    intro HB. pose proof (F2_length _ _ _ HB) as HL. unfold sha256_pad, padded_message, padding. cbv zeta.
    set (L := length bs) in *. rewrite HL.
    set (k := ((512 + 447 - L mod 512) mod 512)%nat).
    assert (Hk : (k < 512)%nat) by (apply Nat.mod_upper_bound; discriminate).
    assert (Hm : ((L + 1 + 64 + k) mod 512 = 0)%nat).
    { unfold k. rewrite Nat.add_mod_idemp_r by discriminate.
      pose proof (Nat.div_mod L 512 ltac:(discriminate)) as E. pose proof (Nat.mod_upper_bound L 512 ltac:(discriminate)) as B.
      replace (L + 1 + 64 + (512 + 447 - L mod 512))%nat with ((L / 512 + 2) * 512)%nat by lia.
      apply Nat.mod_mul. discriminate. }
    rewrite (pad_zeros_spec 512 _ k); [|rewrite app_length, HL; exact Hm|exact Hk|lia].
    split.
    - rewrite <- !app_assoc. apply Forall2_app; [exact HB|]. cbn [app]. constructor; [apply RB_const|].
      apply Forall2_app; [apply F2_repeat, RB_const|].
      unfold bits_of. rewrite <- map_rev.
      induction (rev (seq 0 64)) as [|i js IH]; cbn [map]; constructor; [apply RB_const|exact IH].
    - rewrite !app_length, map_length, rev_length, seq_length, repeat_length, HL. cbn [length].
      etransitivity; [|exact Hm]. apply (f_equal (fun x => (x mod 512)%nat)). lia.
  Qed.

  Lemma fold_left_cons {A B} (f : A -> B -> A) b l a : fold_left f (b :: l) a = fold_left f l (f a b).
  Proof. reflexivity. Qed.
  Opaque hash_block.
  Lemma blocks_loop bl bbs : Forall2 (fun a b => length a = 512%nat /\ Forall2 RB a b) bl bbs -> forall cur H,
    length cur = 8%nat -> Forall2 R cur H ->
    J (foldM (fun cur block => namespace "block i" (sha256_compression_function one block cur)) bl cur)
      (fun o => Forall2 R o (fold_left hash_block bbs H)).
  Proof.
    intro HF. induction HF as [|b bb bl bbs Hb HF IH]; intros cur H HC HR.
    - apply J_ret. exact HR.
    - destruct Hb as [HL HB]. cbn [foldM]. rewrite fold_left_cons.
      apply (J_bind _ _ _ _ (fun o => length o = 8%nat /\ Forall2 R o (hash_block H bb))).
      + apply J_ns. exact (compression b bb cur H HL HB HC HR).
      + intros cur' [H1 H2]. apply (IH cur' (hash_block H bb)); assumption.
  Qed.
  Transparent hash_block.
  Lemma sha256_generic input bs : (length input mod 8 = 0)%nat -> Forall2 RB input bs ->
    J (sha256 one input) (fun o => Forall2 RB o (SHA256 bs)).
  Proof.
    intros H8 HB. unfold sha256. apply J_assert; [now apply Nat.eqb_eq|]. cbv zeta.
    destruct (pad_rel input bs HB) as [HP HM]. apply J_assert; [now apply Nat.eqb_eq|].
    apply Nat.mod_divides in HM; [|discriminate]. destruct HM as [k HM].
    rewrite (chunks_length 512 k) by (lia || exact HM).
    eapply J_bind.
    - apply (blocks_loop _ _ (chunks_F2 RB 512 k _ _ HP HM) get_sha256_iv H0 iv_len iv_rel).
    - intros o Ho. cbv beta in Ho. apply J_ret. unfold SHA256, blocks.
      rewrite <- (F2_length _ _ _ HP), HM, Nat.mul_comm, Nat.div_mul by discriminate.
      apply into_bits, Ho.
  Qed.
End Generic.

Section Sha256Top.
  Context {F : Field} {p : Z} {v : F -> Z} (FL : FieldLaws F p v) (one : Var).
  Variable w : assignment F.
  Hypothesis w_one : w one = fone.

  Definition Js := fun A (m : CS F A) (Q : A -> Prop) => sound w m Q.
  Definition Jc := fun A (m : CS F A) (Q : A -> Prop) => complete w m Q.
  Lemma is_const c : bool_is w (Constant c) c. Proof. reflexivity. Qed.
  Lemma assert_sound {B} b (k : unit -> CS F B) (Q : B -> Prop) : (b = true -> sound w (bind (assert_ b) k) Q) ->
    sound w (bind (assert_ b) k) Q.
  Proof. destruct b; [auto|]. intros _ tr a E. inversion E. Qed.

  Lemma sha256_sound input bs : Forall2 (bool_is w) input bs ->
    sound w (sha256 one input) (fun o => Forall2 (bool_is w) o (SHA256 bs)).
  Proof.
    intro HB. unfold sha256. apply assert_sound. intro E. apply Nat.eqb_eq in E.
    apply (sha256_generic one Js (word_ok w 32) (bool_is w)); unfold Js; intros.
    - apply sound_ret; assumption.
    - eapply sound_bind; eassumption.
    - eapply sound_weaken; eassumption.
    - apply sound_namespace; assumption.
    - eapply xor_sound; eassumption.
    - eapply ch_sound; eassumption.
    - eapply maj_sound; eassumption.
    - eapply addmany_sound; eassumption.
    - apply word_has_ok, u_constant_has; assumption.
    - apply rotr_ok; assumption.
    - apply shr_ok; assumption.
    - apply H.
    - apply u32_from_bits_be_sound; assumption.
    - apply is_const.
    - exact E.
    - exact HB.
  Qed.
  Lemma sha256_complete input bs : (length input mod 8 = 0)%nat -> Forall2 (bool_has w) input bs ->
    complete w (sha256 one input) (fun o => Forall2 (bool_has w) o (SHA256 bs)).
  Proof.
    intros HL HB.
    apply (sha256_generic one Jc (word_has w 32) (bool_has w)); unfold Jc; intros.
    - apply complete_ret; assumption.
    - eapply complete_bind; eassumption.
    - eapply complete_weaken; eassumption.
    - apply complete_namespace; assumption.
    - eapply xor_complete; eassumption.
    - eapply ch_complete; eassumption.
    - eapply maj_complete; eassumption.
    - eapply addmany_complete; eassumption.
    - apply u_constant_has; assumption.
    - apply rotr_has; assumption.
    - apply shr_has; assumption.
    - apply H.
    - apply u32_from_bits_be_complete; assumption.
    - apply const_has_intro.
    - exact HL.
    - exact HB.
  Qed.
  Lemma block_sound input bs : Forall2 (bool_is w) input bs ->
    sound w (sha256_block_no_padding one input)
      (fun o => Forall2 (bool_is w) o (digest_bits (hash_block H0 bs))).
  Proof.
    intro HB. unfold sha256_block_no_padding. apply assert_sound. intro E. apply Nat.eqb_eq in E.
    apply (block_no_padding one Js (word_ok w 32) (bool_is w)); unfold Js; intros.
    - apply sound_ret; assumption.
    - eapply sound_bind; eassumption.
    - eapply sound_weaken; eassumption.
    - apply sound_namespace; assumption.
    - eapply xor_sound; eassumption.
    - eapply ch_sound; eassumption.
    - eapply maj_sound; eassumption.
    - eapply addmany_sound; eassumption.
    - apply word_has_ok, u_constant_has; assumption.
    - apply rotr_ok; assumption.
    - apply shr_ok; assumption.
    - apply H.
    - apply u32_from_bits_be_sound; assumption.
    - exact E.
    - exact HB.
  Qed.
  Lemma block_complete input bs : length input = 512%nat -> Forall2 (bool_has w) input bs ->
    complete w (sha256_block_no_padding one input)
      (fun o => Forall2 (bool_has w) o (digest_bits (hash_block H0 bs))).
  Proof.
    intros HL HB.
    apply (block_no_padding one Jc (word_has w 32) (bool_has w)); unfold Jc; intros.
    - apply complete_ret; assumption.
    - eapply complete_bind; eassumption.
    - eapply complete_weaken; eassumption.
    - apply complete_namespace; assumption.
    - eapply xor_complete; eassumption.
    - eapply ch_complete; eassumption.
    - eapply maj_complete; eassumption.
    - eapply addmany_complete; eassumption.
    - apply u_constant_has; assumption.
    - apply rotr_has; assumption.
    - apply shr_has; assumption.
    - apply H.
    - apply u32_from_bits_be_complete; assumption.
    - exact HL.
    - exact HB.
  Qed.
End Sha256Top.
