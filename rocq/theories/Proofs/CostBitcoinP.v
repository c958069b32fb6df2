(** How many wires and constraints the gadgets of uint32.rs, uint64.rs and sha256.rs and
    the circuit of examples/bitcoin.rs add. *)
From Coq Require Import String List Bool Arith ZArith Lia.
From Verif Require Import Model.FieldTrait Model.Circuits Model.Num Model.Boolean Model.UInt Model.Sha256 Model.Recursion Model.Bitcoin
  Spec.SystemSpec Spec.SizeSpec Proofs.CostP Proofs.AlikeBitcoinP.
Import ListNotations.
Open Scope list_scope. Open Scope Z_scope.
Local Notation length := List.length.

Section Sha.
  Context {F : Field}.
  Variable one : Var.
  Local Notation uses := (@uses F _).

  Lemma U_bit_xor a b : uses (bit_xor a b) (upto 3 3). Proof. unfold bit_xor. repeat ustep. uend. Qed.
  Lemma U_bit_and a b : uses (bit_and a b) (upto 2 2). Proof. unfold bit_and. repeat ustep. uend. Qed.
  Lemma U_bit_and_not a b : uses (bit_and_not one a b) (upto 2 2). Proof. unfold bit_and_not. repeat ustep. uend. Qed.
  Lemma U_bit_nor a b : uses (bit_nor one a b) (upto 2 2). Proof. unfold bit_nor. repeat ustep. uend. Qed.
  Lemma U_xor a b : uses (bool_xor a b) (upto 3 3).
  Proof.
    unfold bool_xor. destruct a as [a|a|[]], b as [b|b|[]]; repeat ustep; try uend;
      (eapply (uses_bind _ _ _ (upto 3 3)); [first [apply U_bit_xor | eapply uses_bind; [apply U_bit_xor|]; intros; ustep; uend]|intros; ustep; uend]).
  Qed.
  Lemma U_and a b : uses (bool_and one a b) (upto 2 2).
  Proof.
    unfold bool_and. destruct a as [a|a|[]], b as [b|b|[]]; repeat ustep; try uend;
      (eapply uses_bind; [first [apply U_bit_and | apply U_bit_and_not | apply U_bit_nor]|]; intros; ustep; uend).
  Qed.
  Lemma U_ch_gate a b c v : uses (sha256_ch_gate one a b c v) (upto 3 3). Proof. unfold sha256_ch_gate. repeat ustep. uend. Qed.
  Lemma U_maj_gate a b c v : uses (sha256_maj_gate one a b c v) (upto 5 5).
  Proof. unfold sha256_maj_gate. repeat ustep. ucall U_and. intros. repeat ustep. uend. Qed.
  Lemma U_ch a b c : uses (bool_sha256_ch one a b c) (upto 3 3).
  Proof.
    unfold bool_sha256_ch. destruct a as [a|a|[]], b as [b|b|[]], c as [c|c|[]]; cbv zeta; repeat ustep; try uend;
      (eapply (uses_weaken _ (upto 3 3)); [first [apply U_ch_gate | eapply uses_weaken; [apply U_and|intros; uend] | eapply uses_bind; [apply U_and|]; intros; ustep; uend]|intros; uend]).
  Qed.
  Lemma U_maj a b c : uses (bool_sha256_maj one a b c) (upto 5 5).
  Proof.
    unfold bool_sha256_maj. destruct a as [a|a|[]], b as [b|b|[]], c as [c|c|[]]; cbv zeta; repeat ustep; try uend;
      (eapply (uses_weaken _ (upto 5 5)); [first [apply U_maj_gate | eapply uses_weaken; [apply U_and|intros; uend] | eapply uses_bind; [apply U_and|]; intros; ustep; uend]|intros; uend]).
  Qed.

  (** *** 32-bit words *)
  Definition small (u : UInt) : Prop := (length (u_bits u) <= 32)%nat.
  Definition word (w l : Z) : UInt -> Z -> Z -> Prop := fun u w' l' => w' <= w /\ l' <= l /\ small u.
  Lemma small_rotr u k : small (u32_rotr u k). Proof. unfold small, u32_rotr. cbn [u_bits]. rewrite firstn_length. lia. Qed.
  Lemma small_shr u k : small (u32_shr u k). Proof. unfold small, u32_shr. cbn [u_bits]. rewrite firstn_length. lia. Qed.
  Lemma small_constant v : small (u_constant 32 v). Proof. unfold small, u_constant, le_bits. cbn [u_bits]. rewrite !map_length, seq_length. lia. Qed.
  Lemma U_u32_xor a b : small a -> uses (u32_xor a b) (word 96 96).
  Proof.
    unfold small, u32_xor. intro H. cbv zeta. eapply uses_bind; [apply (uses_mapM _ (fun _ => True) 3 3); intros [x y] _; ustep; eapply uses_weaken; [apply U_xor|intros; uend]|].
    cbv beta. intros bs w l (E1 & E2 & E3 & _). rewrite combine_length in *. ustep. unfold word, small. cbn [u_bits]. lia.
  Qed.
  Lemma U_u32_ch a b c : small a -> uses (u32_sha256_ch one a b c) (word 96 96).
  Proof.
    unfold small, u32_sha256_ch, u32_triop. intro H. cbv zeta. eapply uses_bind; [apply (uses_mapM _ (fun _ => True) 3 3); intros [[x y] z] _; ustep; eapply uses_weaken; [apply U_ch|intros; uend]|].
    cbv beta. intros bs w l (E1 & E2 & E3 & _). rewrite !combine_length in *. ustep. unfold word, small. cbn [u_bits]. lia.
  Qed.
  Lemma U_u32_maj a b c : small a -> uses (u32_sha256_maj one a b c) (word 160 160).
  Proof.
    unfold small, u32_sha256_maj, u32_triop. intro H. cbv zeta. eapply uses_bind; [apply (uses_mapM _ (fun _ => True) 5 5); intros [[x y] z] _; ustep; eapply uses_weaken; [apply U_maj|intros; uend]|].
    cbv beta. intros bs w l (E1 & E2 & E3 & _). rewrite !combine_length in *. ustep. unfold word, small. cbn [u_bits]. lia.
  Qed.
  Lemma U_result n : forall m v i (c : Coeff F) lc bits, uses (result_loop n m v i c lc bits) (upto (2 * Z.of_nat n) (2 * Z.of_nat n)).
  Proof.
    induction n as [|n IH]; intros m v i c lc bits; cbn [result_loop]; [ustep; uend|]. destruct (m =? 0); [ustep; uend|].
    eapply uses_nsb; [apply U_bit_alloc|]. intros b w l H. eapply uses_weaken; [apply IH|]. intros. uend.
  Qed.
  Lemma U_addmany ops : uses (u32_addmany one ops) (word 128 129).
  Proof.
    unfold u32_addmany. repeat ustep. cbv zeta.
    assert (K : forall v, uses (ret (u_constant 32 v)) (word 128 129)) by (intro v; ustep; unfold word; split; [lia|split; [lia|apply small_constant]]).
    match goal with |- uses (match ?x with _ => _ end) _ => destruct x end; [match goal with |- uses (match ?x with _ => _ end) _ => destruct x end; [apply K|]|].
    all: eapply uses_bind; [apply (U_result 64)|]; change (2 * Z.of_nat 64) with 128; intros [rl rb] w l HU; repeat ustep; unfold word, small, upto in *; cbn [u_bits]; rewrite firstn_length; lia.
  Qed.

  (** *** SHA-256 *)
  Lemma U_index {A B} (l : list A) i (f : A -> CS F B) Q : (forall x, In x l -> uses (f x) Q) -> uses (bind (index l i) f) Q.
  Proof. intro H. unfold index. apply uses_unwrapb. intros x Hx. apply H. exact (nth_error_In _ _ Hx). Qed.
  Lemma U_extension w i : Forall small w -> uses (w_extension one w i) (fun r w' l' => w' <= 512 /\ l' <= 513 /\ Forall small r).
  Proof.
    intro H. unfold w_extension. ustep. apply U_index. intros w15 _.
    eapply uses_nsb; [apply U_u32_xor, small_rotr|]. intros a wa la (A1 & A2 & A3). eapply uses_nsb; [apply U_u32_xor, A3|]. intros s0 w0 l0 (B1 & B2 & B3).
    apply U_index. intros w2 _.
    eapply uses_nsb; [apply U_u32_xor, small_rotr|]. intros b wb lb (C1 & C2 & C3). eapply uses_nsb; [apply U_u32_xor, C3|]. intros s1 w1 l1 (D1 & D2 & D3).
    apply U_index. intros w16 _. apply U_index. intros w7 _. eapply uses_nsb; [apply U_addmany|]. intros t wt lt (T1 & T2 & T3). ustep. split; [lia|]. split; [lia|].
    apply Forall_app. split; [exact H|]. constructor; [exact T3|constructor].
  Qed.
  Definition smallM (m : Maybe) : Prop := match m with Concrete u => small u | Deferred _ => True end.
  Lemma U_compute s m o : smallM m -> uses (compute one s m o) (word 128 129).
  Proof. intro H. unfold compute. ustep. destruct m; [apply U_addmany|]. ustep. cbn [smallM] in H. unfold word. split; [lia|]. split; [lia|exact H]. Qed.
  Lemma U_round w s i : smallM (s_a s) /\ smallM (s_e s) -> uses (compression_round one w s i) (fun s w' l' => w' <= 896 /\ l' <= 898 /\ smallM (s_a s) /\ smallM (s_e s)).
  Proof.
    intros [Ha He]. unfold compression_round. ustep. eapply uses_bind; [apply U_compute, He|]. intros e we le (A1 & A2 & A3).
    eapply uses_nsb; [apply U_u32_xor, small_rotr|]. intros x1 wx1 lx1 (B1 & B2 & B3). eapply uses_nsb; [apply U_u32_xor, B3|]. intros s1 ws1 ls1 (C1 & C2 & C3).
    eapply uses_nsb; [apply U_u32_ch, A3|]. intros ch wch lch (D1 & D2 & D3). apply U_index. intros k _. apply U_index. intros wi _. cbv zeta.
    eapply uses_bind; [apply U_compute, Ha|]. intros a wa la (E1 & E2 & E3).
    eapply uses_nsb; [apply U_u32_xor, small_rotr|]. intros x0 wx0 lx0 (G1 & G2 & G3). eapply uses_nsb; [apply U_u32_xor, G3|]. intros s0 ws0 ls0 (H1 & H2 & H3).
    eapply uses_nsb; [apply U_u32_maj, E3|]. intros maj wm lm (I1 & I2 & I3). ustep. cbn [s_a s_e smallM]. repeat split; lia.
  Qed.
  Lemma U_compression input cur : Forall small cur -> uses (sha256_compression_function one input cur) (fun r w' l' => w' <= 82944 /\ l' <= 83128 /\ Forall small r /\ length r = 8%nat).
  Proof.
    intro HC. unfold sha256_compression_function. ustep. ustep. eapply uses_bind; [apply (uses_mapM _ small 0 0)|].
    { intros c _. unfold u32_from_bits_be. ustep. ustep. match goal with H : _ = true |- _ => apply Nat.eqb_eq in H end. unfold small. cbn [u_bits]. rewrite rev_length. lia. }
    intros w0 ww lw (W1 & W2 & _ & W3). eapply uses_bind; [apply (uses_foldM _ (Forall small) 512 513); [|exact W3]|].
    { intros b x _ Hb. apply U_extension, Hb. }
    intros w we le (X1 & X2 & X3). rewrite seq_length in *. ustep. rewrite Forall_forall in HC.
    apply U_index; intros h0 J0. apply U_index; intros h1 J1. apply U_index; intros h2 J2. apply U_index; intros h3 J3.
    apply U_index; intros h4 J4. apply U_index; intros h5 J5. apply U_index; intros h6 J6. apply U_index; intros h7 J7.
    eapply uses_bind; [apply (uses_foldM _ (fun s => smallM (s_a s) /\ smallM (s_e s)) 896 898)|].
    { intros b x _ Hb. eapply uses_weaken; [apply U_round, Hb|]. cbv beta. tauto. }
    { split; cbn [s_a s_e smallM]; apply HC; assumption. }
    intros s ws ls (S1 & S2 & S3 & S4). rewrite seq_length in *.
    eapply uses_bind; [apply U_compute, S3|]. intros n0 w0' l0' (A0 & B0 & C0).
    eapply uses_nsb; [apply U_addmany|]. intros n1 w1' l1' (A1 & B1 & C1). eapply uses_nsb; [apply U_addmany|]. intros n2 w2' l2' (A2 & B2 & C2). eapply uses_nsb; [apply U_addmany|]. intros n3 w3' l3' (A3 & B3 & C3).
    eapply uses_bind; [apply U_compute, S4|]. intros n4 w4' l4' (A4 & B4 & C4).
    eapply uses_nsb; [apply U_addmany|]. intros n5 w5' l5' (A5 & B5 & C5). eapply uses_nsb; [apply U_addmany|]. intros n6 w6' l6' (A6 & B6 & C6). eapply uses_nsb; [apply U_addmany|]. intros n7 w7' l7' (A7 & B7 & C7).
    ustep. change (Z.of_nat 48) with 48 in *. change (Z.of_nat 64) with 64 in *. split; [lia|]. split; [lia|]. split; [repeat (apply Forall_cons; [assumption|]); apply Forall_nil|reflexivity].
  Qed.
  Lemma pad_zeros_length k n : forall a, (length a + 64 <= 512 * k)%nat -> (length (pad_zeros n a) + 64 <= 512 * k)%nat.
  Proof.
    induction n as [|n IH]; intros a H; cbn [pad_zeros]; [exact H|]. destruct (((length a + 64) mod 512 =? 0)%nat) eqn:E; [exact H|].
    apply IH. rewrite app_length. cbn [length]. apply Nat.eqb_neq in E. assert (length a + 64 <> 512 * k)%nat; [|lia]. intro X. apply E. rewrite X, Nat.mul_comm. apply Nat.mod_mul. lia.
  Qed.
  Lemma blocks_count k l : (length l + 65 <= 512 * k)%nat -> (length (Sha256.chunks 512 (sha256_pad l)) <= k)%nat.
  Proof.
    intro H. unfold Sha256.chunks. rewrite map_length, seq_length. unfold sha256_pad. cbv zeta. rewrite app_length, map_length, rev_length, seq_length.
    pose proof (pad_zeros_length k 512 (l ++ [Constant true])) as P. rewrite app_length in P. cbn [length] in P. specialize (P ltac:(lia)).
    apply Nat.lt_succ_r. apply Nat.div_lt_upper_bound; lia.
  Qed.
  Lemma small_out cur : Forall small cur -> (length (flat_map u_into_bits_be cur) <= 32 * length cur)%nat.
  Proof. induction 1 as [|u cur Hu H IH]; [cbn; lia|]. cbn [flat_map length]. rewrite app_length. unfold u_into_bits_be at 1. rewrite rev_length. unfold small in Hu. lia. Qed.
  Lemma U_sha256 k l : (length l + 65 <= 512 * k)%nat -> uses (sha256 one l) (fun r w' l' => w' <= 82944 * Z.of_nat k /\ l' <= 83128 * Z.of_nat k /\ (length r <= 256)%nat).
  Proof.
    intro H. apply blocks_count in H. unfold sha256. ustep. cbv zeta. ustep.
    eapply uses_bind; [apply (uses_foldM _ (fun cur => Forall small cur /\ length cur = 8%nat) 82944 83128)|].
    { intros b x _ Hb. ustep. apply U_compression, Hb. }
    { split; [|reflexivity]. unfold get_sha256_iv. apply Forall_forall. intros u Hu. apply in_map_iff in Hu. destruct Hu as (v & <- & _). apply small_constant. }
    intros cur w' l' (E1 & E2 & E3 & E4). ustep. pose proof (small_out cur E3). rewrite E4 in *. lia.
  Qed.

  (** *** examples/bitcoin.rs *)
  Hypothesis H256 : forall x : F, length (fe_bits x) = 256%nat.
  Lemma U_slice {A B} (l : list A) a b (f : _ -> CS F B) Q : ((b <= length l)%nat -> uses (f (firstn (b - a) (skipn a l))) Q) -> uses (bind (slice l a b) f) Q.
  Proof.
    intro H. eapply (uses_bind _ _ _ (fun r w l' => w = 0 /\ l' = 0 /\ (b <= length l)%nat /\ r = firstn (b - a) (skipn a l))).
    - unfold slice. ustep. ustep. match goal with H : _ = true |- _ => apply Nat.leb_le in H end. auto.
    - intros r w l' (-> & -> & Hb & ->). exact (H Hb).
  Qed.
  Lemma U_bits_to_num bits : uses (bits_to_num one bits) (upto 1 1).
  Proof. unfold bits_to_num. cbv zeta. eapply uses_nsb; [apply U_num_alloc|]. intros. repeat ustep. uend. Qed.
  Lemma U_payload bits : uses (unpack_payload_bits one bits) (fun r w' l' => w' <= 2 /\ l' <= 2 /\ length (snd r) = 640%nat).
  Proof.
    unfold unpack_payload_bits. cbv zeta. apply U_slice. intros _. apply U_slice. intros _. apply U_slice. intro HL.
    eapply uses_nsb; [apply U_bits_to_num|]. intros h w1 l1 H1. eapply uses_nsb; [apply U_bits_to_num|]. intros c w2 l2 H2. ustep. cbn [snd]. unfold upto in *.
    split; [lia|]. split; [lia|]. rewrite firstn_length, skipn_length. change (8 * (4 + 32 + 80))%nat with 928%nat in *. change (8 * (4 + 32))%nat with 288%nat. lia.
  Qed.
  Lemma U_sha256d l : length l = 640%nat -> uses (sha256d one l) (upto 248832 249384).
  Proof.
    intro H. unfold sha256d. eapply uses_nsb; [apply (U_sha256 2); rewrite (flip_length l 80 H); apply Nat.leb_le; reflexivity|]. intros m w1 l1 (E1 & E2 & E3).
    eapply uses_nsb; [apply (U_sha256 1); lia|]. intros r w2 l2 (G1 & G2 & _). ustep. change (Z.of_nat 2) with 2 in *. change (Z.of_nat 1) with 1 in *. uend.
  Qed.
  Lemma U_equality a b : uses (enforce_equality one a b) (upto 0 1).
  Proof. unfold enforce_equality. ustep. destruct (equality_lcs one lc_zero lc_zero COne a b). ustep. uend. Qed.
  Lemma U_links ph h pb hb : length pb = 640%nat -> length hb = 640%nat -> uses (header_links one ph h pb hb) (upto 497664 498770).
  Proof.
    intros H1 H2. unfold header_links. ustep. eapply uses_nsb; [apply U_sha256d, H1|]. intros. apply U_slice. intros _. eapply uses_nsb; [apply U_equality|]. intros. eapply uses_nsb; [apply U_sha256d, H2|]. intros. ustep. uend.
  Qed.
  Lemma U_from_header hb : uses (from_header (F := F) hb) (fun c w' l' => w' <= 0 /\ l' <= 0 /\ (length (cb_size_bits c) <= 8)%nat).
  Proof.
    unfold from_header. apply U_slice. intros _. apply U_index. intros g _. apply U_slice. intros _. cbv zeta. ustep. ustep. cbn [cb_size_bits]. rewrite firstn_length.
    change (8 * NBITS_START + 32 - (8 * NBITS_START + 24))%nat with 8%nat. lia.
  Qed.
  Lemma U_bytes data n : uses (bytes_to_bits (F := F) data n) (upto (16 * Z.of_nat n) (16 * Z.of_nat n)).
  Proof.
    unfold bytes_to_bits. eapply uses_weaken; [apply (uses_mapM _ (fun _ => True) 2 2)|].
    - intros [i j] _. eapply uses_nsb; [apply U_bit_alloc|]. intros. ustep. uend.
    - cbv beta. intros bs w l (E1 & E2 & _). rewrite prod_length, !seq_length in *. unfold upto. lia.
  Qed.
  Lemma U_unpack_target c : uses (unpack_target (F := F) one c) (upto 512 513).
  Proof.
    unfold unpack_target. ustep. eapply (uses_bind _ _ _ (upto 0 0)).
    - destruct (cb_mantissa c); [|ustep; uend]. destruct (cb_size c); [|ustep; uend]. ustep. ustep. uend.
    - intros v w l H. eapply uses_nsb; [apply (U_bytes v 32)|]. intros. ustep. change (Z.of_nat 32) with 32 in *. uend.
  Qed.
  Lemma U_pow_step base n b : uses (pow_step one base n b) (upto 7 7).
  Proof.
    unfold pow_step. ustep. eapply uses_nsb; [apply U_num_mul|]. intros. eapply uses_nsb; [apply U_num_mul|]. intros. eapply uses_nsb; [apply U_num_alloc|]. intros. repeat ustep. uend.
  Qed.
  Lemma U_power c : (length (cb_size_bits c) <= 8)%nat -> uses (unpack_power (F := F) one c) (upto 58 60).
  Proof.
    intro H. unfold unpack_power. eapply uses_nsb; [apply U_num_alloc|]. intros. ustep. ustep. apply U_index. intros. ustep. apply U_index. intros. ustep. apply U_index. intros. ustep.
    eapply uses_nsb; [apply U_num_alloc|]. intros. eapply uses_weaken; [apply (uses_foldM _ (fun _ => True) 7 7); [|exact I]|].
    - intros b z _ _. eapply uses_weaken; [apply U_pow_step|]. intros. unfold upto in *. tauto.
    - cbv beta. intros b w' l' (E1 & E2 & _). rewrite skipn_length, rev_length in *. unfold upto in *. lia.
  Qed.
  Lemma U_unpack_cb c : (length (cb_size_bits c) <= 8)%nat -> uses (Bitcoin.unpack (F := F) one c) (upto 574 578).
  Proof.
    intro H. unfold Bitcoin.unpack. eapply uses_bind; [apply U_unpack_target|]. intros [t v] ? ? ?. eapply uses_bind; [apply U_power, H|]. intros. cbv zeta. repeat ustep. uend.
  Qed.
  Lemma U_from_target f v : uses (from_target (F := F) f v) (upto 0 0).
  Proof. unfold from_target. destruct v as [x|]; [|ustep; uend]. destruct (f x); [apply (uses_ret (F := F)); uend|apply uses_panic]. Qed.
  Lemma U_limbs bits : uses (four_limbs (F := F) bits) (upto 0 0).
  Proof.
    unfold four_limbs. eapply uses_weaken; [apply (uses_mapM _ (fun _ => True) 0 0)|].
    - intros i _. apply U_slice. intros _. unfold u_from_bits. ustep. ustep. repeat split; lia.
    - cbv beta. intros bs w l (E1 & E2 & _). uend.
  Qed.
  Lemma U_alloc_bits vs : uses (alloc_bits (F := F) vs) (upto (2 * Z.of_nat (length vs)) (2 * Z.of_nat (length vs))).
  Proof.
    unfold alloc_bits. eapply uses_weaken; [apply (uses_mapM _ (fun _ => True) 2 2)|].
    - intros i _. eapply uses_nsb; [apply U_bit_alloc|]. intros. ustep. uend.
    - cbv beta. intros bs w l (E1 & E2 & _). uend.
  Qed.
  Lemma U_mul_acc2 a b c d : uses (u64_mul_acc2 one a b c d) (upto 258 259).
  Proof.
    unfold u64_mul_acc2. cbv zeta. eapply uses_bind; [apply U_alloc_bits|]. rewrite hint_length. change (Z.of_nat 128) with 128. intros r w l H. unfold u_from_bits.
    eapply (uses_bind _ _ _ (upto 0 0)); [ustep; ustep; uend|]. intros. eapply (uses_bind _ _ _ (upto 0 0)); [ustep; ustep; uend|]. intros. repeat ustep. uend.
  Qed.
  Lemma U_mul_limbs t x w : uses (mul_limbs one t x w) (upto 4128 4144).
  Proof.
    unfold mul_limbs. ustep. eapply uses_weaken; [apply (uses_foldM _ (fun _ => True) 1032 1036); [|exact I]|].
    - intros a j _ _. unfold mul_outer. eapply uses_bind; [apply (uses_foldM _ (fun _ => True) 258 259); [|exact I]|].
      + intros [z k] i _ _. unfold mul_inner. apply U_index. intros. apply U_index. intros. apply U_index. intros. eapply uses_nsb; [apply U_mul_acc2|]. intros [lo hi] ? ? ?. ustep. unfold upto in *. lia.
      + cbv beta. intros [z k] w' l' (E1 & E2 & _). rewrite seq_length in *. ustep. change (Z.of_nat 4) with 4 in *. lia.
    - cbv beta. intros b w' l' (E1 & E2 & _). rewrite seq_length in *. change (Z.of_nat 4) with 4 in *. uend.
  Qed.
  Lemma U_header_work t v : uses (header_work one t v) (upto 5154 5178).
  Proof.
    unfold header_work. cbv zeta. eapply uses_bind; [apply U_limbs|]. intros. eapply uses_bind; [apply U_from_target|]. intros. eapply uses_nsb; [apply U_num_alloc|]. intros.
    eapply uses_nsb; [apply U_unpack, H256|]. intros ? ? ? (? & ? & _). eapply uses_bind; [apply U_limbs|]. intros. eapply uses_bind; [apply U_from_target|]. intros. eapply uses_nsb; [apply U_num_alloc|]. intros.
    eapply uses_nsb; [apply U_unpack, H256|]. intros ? ? ? (? & ? & _). eapply uses_bind; [apply U_limbs|]. intros. eapply uses_bind; [apply U_mul_limbs|]. intros.
    do 8 (apply U_index; intros; ustep). ustep. uend.
  Qed.
  Theorem U_bitcoin old new : uses (bitcoin_synthesize one old new) (upto 503396 504531).
  Proof.
    unfold bitcoin_synthesize. eapply uses_nsb; [apply U_payload|]. intros [[ph pc] pb] w1 l1 (A1 & A2 & A3). eapply uses_nsb; [apply U_payload|]. intros [[h c] hb] w2 l2 (B1 & B2 & B3). cbn [snd] in *.
    eapply uses_bind; [apply U_links; assumption|]. intros. eapply uses_bind; [apply U_from_header|]. intros cb w3 l3 (C1 & C2 & C3). eapply uses_nsb; [apply U_unpack_cb, C3|]. intros [t v] ? ? ?.
    eapply uses_bind; [apply U_header_work|]. intros. repeat ustep. uend.
  Qed.
End Sha.
Theorem bitcoin_size {F : Field} len : (forall x : F, length (fe_bits x) = 256%nat) -> inner_adds_at_most (bitcoin_circuit (F := F)) len 503396 504531.
Proof. intros H256 one old new _ _. apply uses_adds. exact (U_bitcoin one H256 old new). Qed.
