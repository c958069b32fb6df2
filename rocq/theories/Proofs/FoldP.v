(** The folding formulas of the inner product argument. *)
From Coq Require Import List Bool ZArith Arith Lia Ring Field.
From Verif Require Import Lib.AbGroup Lib.Abel Model.FieldTrait Model.Curve Model.Threads Model.Util Spec.FieldLaws Spec.CurveSpec
  Spec.CurveLaws Spec.UtilSpec Proofs.FieldGen Proofs.ZtoF Proofs.ThreadsP Proofs.SumP Proofs.FftP Proofs.CurveTop Proofs.MultiexpP.
Import ListNotations.
Open Scope nat_scope.

Section Halve.
  Lemma halve_length {A} (op : A -> A -> A) v : length (halve op v) = length v / 2.
  Proof.
    unfold halve. rewrite map_length, combine_length, firstn_length, skipn_length.
    pose proof (Nat.div_mod (length v) 2 ltac:(lia)). lia.
  Qed.
  Lemma halve_app {A} (op : A -> A -> A) lo hi : length lo = length hi -> halve op (lo ++ hi) = map (fun '(l, h) => op l h) (combine lo hi).
  Proof.
    intro H. unfold halve. assert (E : length (lo ++ hi) / 2 = length lo).
    { rewrite app_length, <- H. replace (length lo + length lo) with (length lo * 2) by lia. apply Nat.div_mul. lia. }
    rewrite E, firstn_app, firstn_all, Nat.sub_diag, skipn_app, skipn_all, Nat.sub_diag. cbn [firstn skipn app]. rewrite app_nil_r. reflexivity.
  Qed.
  Lemma halve_map {A B} (f : A -> B) (opA : A -> A -> A) (opB : B -> B -> B) v : (forall x y, f (opA x y) = opB (f x) (f y)) ->
    map f (halve opA v) = halve opB (map f v).
  Proof.
    intro H. unfold halve. rewrite map_length, map_map, firstn_map, skipn_map.
    generalize (firstn (length v / 2) v), (skipn (length v / 2) v). intros l. induction l as [|x l IH]; intros [|y l']; cbn; try reflexivity.
    rewrite H, IH. reflexivity.
  Qed.
  Lemma split_half {A} (v : list A) n : length v = 2 * n -> exists lo hi, v = lo ++ hi /\ length lo = n /\ length hi = n.
  Proof.
    intro H. exists (firstn n v), (skipn n v). rewrite firstn_skipn, firstn_length, skipn_length. split; [reflexivity|]. lia.
  Qed.
End Halve.

Section FoldB.
  Context {F : Field} {p v} (OL : OpsLaws F p v).
  Add Field Ff : (ffield OL).
  Notation "a [+] b" := (fadd a b) (at level 50, left associativity). Notation "a [*] b" := (fmul a b) (at level 40, left associativity).

  Lemma compute_b_snoc (l : list F) : forall (li : list F) (x c ci : F), length l = length li ->
    compute_b_rev x (l ++ [c]) (li ++ [ci]) = compute_b_rev x l li [*] (ci [+] c [*] fpow x (2 ^ length l)).
  Proof.
    induction l as [|c0 l IH]; intros [|ci0 li] x c ci H; cbn [length] in H; try discriminate H.
    - cbn [app compute_b_rev length Nat.pow]. rewrite (fpow_1 OL). ring.
    - injection H as H. specialize (IH li (fsquare x) c ci H).
      assert (E : fpow (fsquare x) (2 ^ length l) = fpow x (2 ^ length (c0 :: l))).
      { rewrite (fsquare_mul OL). cbn [length Nat.pow]. rewrite (fpow_mul OL). f_equal. cbn [fpow]. ring. }
      assert (R : forall l li, compute_b_rev x (c0 :: l) (ci0 :: li) =
        match l with [] => ci0 [+] c0 [*] x | _ => (ci0 [+] c0 [*] x) [*] compute_b_rev (fsquare x) l li end).
      { intros l0 li0. destruct l0; reflexivity. }
      cbn [app]. rewrite !R. rewrite E in IH. destruct l as [|c1 l].
      + destruct li; [|discriminate H]. cbn [app] in IH |- *. rewrite IH. cbn [compute_b_rev]. ring.
      + cbn [app] in IH |- *. rewrite IH. ring.
  Qed.
  Definition scaled (s x : F) (n : nat) : list F := map (fun i => s [*] fpow x i) (seq 0 n).
  Lemma scaled_app (s x : F) n m : scaled s x (n + m) = scaled s x n ++ map (fun i => s [*] fpow x (n + i)) (seq 0 m).
  Proof.
    unfold scaled. rewrite seq_app, map_app. f_equal. cbn [Nat.add].
    revert n. induction m as [|m IH]; intro n; [reflexivity|]. cbn [seq map]. rewrite Nat.add_0_r. f_equal.
    rewrite IH, <- seq_shift, map_map. apply map_ext. intro i. do 2 f_equal. lia.
  Qed.
  Lemma halve_scaled (s x : F) n (c ci : F) : halve (fold_scalar (c, ci)) (scaled s x (n + n)) = scaled (s [*] (ci [+] c [*] fpow x n)) x n.
  Proof.
    rewrite scaled_app, halve_app by (unfold scaled; rewrite !map_length; reflexivity).
    unfold scaled. generalize (seq 0 n). intro l. induction l as [|i l IH]; [reflexivity|]. cbn [map combine]. f_equal; [|exact IH].
    unfold fold_scalar. cbn [fst snd]. rewrite (fpow_add OL). ring.
  Qed.
  Lemma fold_scaled (cs : list F) : forall (cis : list F) (s x : F), length cs = length cis ->
    fold_vector fold_scalar (combine cs cis) (scaled s x (2 ^ length cs)) = [s [*] compute_b_rev x (rev cs) (rev cis)].
  Proof.
    unfold fold_vector. induction cs as [|c cs IH]; intros [|ci cis] s x H; cbn [length] in H; try discriminate H.
    - cbn. reflexivity.
    - injection H as H. cbn [combine fold_left length].
      replace (2 ^ S (length cs)) with (2 ^ length cs + 2 ^ length cs) by (cbn [Nat.pow]; lia).
      rewrite halve_scaled, IH by exact H. f_equal. cbn [rev]. rewrite compute_b_snoc by (rewrite !rev_length; exact H).
      rewrite rev_length. ring.
  Qed.
  Theorem compute_b_eq (x : F) (cs cis : list F) : cs <> [] -> length cs = length cis -> exists y, compute_b x cs cis = Some y /\
    fold_vector fold_scalar (combine cs cis) (powers x (2 ^ length cs)) = [y].
  Proof.
    intros H HL. unfold compute_b. destruct cs as [|c cs]; [congruence|]. rewrite (proj2 (Nat.eqb_eq _ _) HL).
    change (Nat.eqb (length (c :: cs)) 0) with false. cbv iota.
    eexists. split; [reflexivity|]. pose proof (fold_scaled (c :: cs) cis fone x HL) as E. unfold powers.
    replace (map (fpow x) (seq 0 (2 ^ length (c :: cs)))) with (scaled fone x (2 ^ length (c :: cs))).
    - rewrite E. f_equal. ring.
    - apply map_ext. intro i. ring.
  Qed.
  Lemma compute_b_panics x (cs cis : list F) : compute_b x cs cis = None <-> cs = [] \/ length cs <> length cis.
  Proof.
    unfold compute_b. destruct cs as [|c cs]; [split; [left; reflexivity|reflexivity]|].
    change (Nat.eqb (length (c :: cs)) 0) with false. cbv iota.
    destruct (Nat.eqb_spec (length (c :: cs)) (length cis)) as [E|E]; split; intro H; try discriminate H; try reflexivity.
    - destruct H as [H|H]; [discriminate H|contradiction].
    - right. exact E.
  Qed.

  (** the coefficients of the folded generator *)
  Lemma log2_high n i : 2 ^ n <= i < 2 ^ S n -> Nat.log2 i = n.
  Proof. intro H. apply (Nat.log2_unique i n); [lia|]. exact H. Qed.
  Lemma coeffs_step (sq0 : F) (sqs : list F) (allinv : F) :
    compute_g_coeffs_for_inner_product (sq0 :: sqs) allinv
    = compute_g_coeffs_for_inner_product sqs allinv ++ map (fun t => t [*] sq0) (compute_g_coeffs_for_inner_product sqs allinv).
  Proof.
    unfold compute_g_coeffs_for_inner_product. cbv zeta. cbn [length].
    set (k := length sqs). set (N := 2 ^ k). assert (HN : 0 < N) by apply pow2_pos.
    replace (2 ^ S k - 1) with ((N - 1) + N) by (unfold N; cbn [Nat.pow]; lia).
    rewrite seq_app, fold_left_app. replace (1 + (N - 1)) with N by lia.
    set (stepS := fun s i => s ++ [nth (i - 2 ^ Nat.log2 i) s fzero [*] nth (S k - 1 - Nat.log2 i) (sq0 :: sqs) fzero]).
    set (step := fun s i => s ++ [nth (i - 2 ^ Nat.log2 i) s fzero [*] nth (k - 1 - Nat.log2 i) sqs fzero]).
    (* the first half *)
    assert (H1 : forall n, n <= N - 1 -> fold_left stepS (seq 1 n) [allinv] = fold_left step (seq 1 n) [allinv]
                 /\ length (fold_left step (seq 1 n) [allinv]) = S n).
    { induction n as [|n IH]; intro Hn; [split; reflexivity|]. destruct (IH ltac:(lia)) as [I1 I2].
      rewrite seq_S, !fold_left_app, I1. cbn [fold_left Nat.add]. split.
      - unfold stepS at 1, step at 2. do 4 f_equal.
        assert (Hlog : Nat.log2 (S n) < k). { apply Nat.log2_lt_pow2; [lia|]. unfold N in *. lia. }
        replace (S k - 1 - Nat.log2 (S n)) with (S (k - 1 - Nat.log2 (S n))) by lia. reflexivity.
      - unfold step at 1. rewrite app_length, I2. cbn [length]. lia. }
    destruct (H1 (N - 1) (le_n _)) as [E1 E2]. rewrite E1. set (t := fold_left step (seq 1 (N - 1)) [allinv]) in *.
    replace (S (N - 1)) with N in E2 by lia. clear E1 H1.
    (* the second half *)
    assert (H2 : forall n, n <= N -> fold_left stepS (seq N n) t = t ++ map (fun x => x [*] sq0) (firstn n t)).
    { induction n as [|n IH]; intro Hn; [cbn [seq fold_left firstn map]; rewrite app_nil_r; reflexivity|].
      rewrite seq_S, fold_left_app, IH by lia. cbn [fold_left]. unfold stepS at 1.
      assert (Hlog : Nat.log2 (N + n) = k). { apply log2_high. unfold N in *. cbn [Nat.pow]. lia. }
      rewrite Hlog. fold N. replace (N + n - N) with n by lia. replace (S k - 1 - k) with 0 by lia. cbn [nth].
      rewrite app_nth1 by lia. rewrite <- app_assoc. f_equal.
      assert (Hf : firstn (S n) t = firstn n t ++ [nth n t fzero]).
      { clear - E2 Hn. revert n Hn. rewrite <- E2. clear E2. induction t as [|x t IH]; intros [|n] Hn; cbn [length] in Hn; try lia; [reflexivity|].
        change (firstn (S (S n)) (x :: t)) with (x :: firstn (S n) t). change (firstn (S n) (x :: t)) with (x :: firstn n t).
        cbn [nth app]. rewrite IH by lia. reflexivity. }
      rewrite Hf, map_app. reflexivity. }
    rewrite H2 by lia. rewrite <- E2, firstn_all. reflexivity.
  Qed.
  Lemma coeffs_nil (allinv : F) : compute_g_coeffs_for_inner_product [] allinv = [allinv].
  Proof. reflexivity. Qed.
  Lemma coeffs_length (sqs : list F) (a : F) : length (compute_g_coeffs_for_inner_product sqs a) = 2 ^ length sqs.
  Proof.
    induction sqs as [|s sqs IH]; [reflexivity|]. rewrite coeffs_step, app_length, map_length, IH. cbn [length Nat.pow]. lia.
  Qed.
  Lemma coeffs_scale (sqs : list F) (a c : F) : compute_g_coeffs_for_inner_product sqs (a [*] c) = map (fun t => t [*] c) (compute_g_coeffs_for_inner_product sqs a).
  Proof.
    induction sqs as [|s sqs IH]; [reflexivity|]. rewrite !coeffs_step, IH, map_app, !map_map. f_equal. apply map_ext. intro. ring.
  Qed.
End FoldB.

Section FoldG.
  Context {C : Curve} {q vb r vs} (CL : CurveLaws C q vb r vs).
  Notation G := (cl_group _ _ _ _ _ CL).
  Notation rep := (rep CL).
  Let SL := cl_scalar _ _ _ _ _ CL.
  Let SO := fl_ops _ _ _ SL.
  Notation S_ := (Scalar C).
  Notation zsum := (zsum CL).

  Lemma zmul_fmul (a b : S_) (g : G) : zmul (vs (fmul a b)) g = zmul (vs a) (zmul (vs b) g).
  Proof. rewrite (ol_mul _ _ _ SO), <- zmul_mul. apply zmul_mod, (cl_order _ _ _ _ _ CL). Qed.
  Lemma zsum_scale (c : S_) l : forall gs, zsum (map vs (map (fun t => fmul t c) l)) gs = zmul (vs c) (zsum (map vs l) gs).
  Proof.
    induction l as [|t l IH]; intros [|g gs]; cbn [map MultiexpP.zsum]; try (symmetry; apply zmul_g0).
    rewrite IH, zmul_gp, zmul_fmul. f_equal. rewrite <- !zmul_mul, Z.mul_comm. reflexivity.
  Qed.
  Lemma zsum_gp ks : forall gs hs, length gs = length hs -> zsum ks (map (fun '(a, b) => gp a b) (combine gs hs)) = gp (zsum ks gs) (zsum ks hs).
  Proof.
    induction ks as [|k ks IH]; intros [|g gs] [|h hs] H; cbn [length] in H; try discriminate H; cbn [combine map MultiexpP.zsum];
      try (symmetry; apply gp_0_l). rewrite IH by congruence. abel.
  Qed.
  Lemma zsum_map_zmul k l : forall gs, zsum l (map (zmul k) gs) = zmul k (zsum l gs).
  Proof. induction l as [|x l IH]; intros [|g gs]; cbn [map MultiexpP.zsum]; try (symmetry; apply zmul_g0). rewrite IH. abel. Qed.

  Definition gfold (c : S_ * S_) (lo hi : G) : G := gp (zmul (vs (snd c)) lo) (zmul (vs (fst c)) hi).
  Lemma fold_point_rep c (P Q : C) g h : rep P g -> rep Q h -> rep (fold_point c P Q) (gfold c g h).
  Proof. intros HP HQ. unfold fold_point, gfold. apply rep_add; apply rep_mul; assumption. Qed.
  Lemma halve_rep c (Ps : list C) gs : Forall2 rep Ps gs -> Forall2 rep (halve (fold_point c) Ps) (halve (gfold c) gs).
  Proof.
    intro H. unfold halve. rewrite (Forall2_len _ _ _ H). set (l := length gs / 2).
    pose proof (Forall2_firstn rep l _ _ H) as H1. pose proof (Forall2_skipn rep l _ _ H) as H2.
    revert H2. generalize (skipn l Ps), (skipn l gs). clear H. induction H1 as [|P g Ps' gs' HP H1 IH]; intros Qs hs H2; [constructor|].
    destruct H2 as [|Q h Qs hs HQ H2]; [constructor|]. cbn [combine map]. constructor; [apply fold_point_rep; assumption|]. apply IH, H2.
  Qed.
  Lemma fold_rep cs : forall (Ps : list C) gs, Forall2 rep Ps gs -> Forall2 rep (fold_vector fold_point cs Ps) (fold_vector gfold cs gs).
  Proof. unfold fold_vector. induction cs as [|c cs IH]; intros Ps gs H; [exact H|]. cbn [fold_left]. apply IH, halve_rep, H. Qed.

  Definition product (l : list S_) : S_ := fold_right fmul fone l.
  Lemma gfold_coeffs cs : forall cis gs, length cs = length cis -> Forall2 (fun c ci : S_ => fmul c ci = fone) cs cis -> length gs = 2 ^ length cs ->
    fold_vector gfold (combine cs cis) gs = [zsum (map vs (compute_g_coeffs_for_inner_product (map fsquare cs) (product cis))) gs].
  Proof.
    Add Field Fs : (ffield SO).
    unfold fold_vector. induction cs as [|c cs IH]; intros [|ci cis] gs HL HI Hg; cbn [length] in HL; try discriminate HL.
    - cbn [length Nat.pow] in Hg. destruct gs as [|g [|g' gs]]; try discriminate Hg. cbn [combine fold_left map product fold_right].
      rewrite coeffs_nil. cbn [map MultiexpP.zsum]. rewrite gp_0_r, (ol_one _ _ _ SO), zmul_1. reflexivity.
    - injection HL as HL. inversion HI as [|? ? ? ? Hc HI']; subst. cbn [length Nat.pow] in Hg.
      destruct (split_half gs (2 ^ length cs)) as (lo & hi & -> & Hlo & Hhi); [lia|].
      cbn [combine fold_left]. rewrite halve_app by congruence. rewrite IH; [|exact HL|exact HI'|].
      2: { rewrite map_length, combine_length. lia. }
      f_equal. cbn [map product fold_right]. rewrite coeffs_step. fold (product cis).
      replace (fmul ci (product cis)) with (fmul (product cis) ci) by ring.
      rewrite !(coeffs_scale SO). set (t := compute_g_coeffs_for_inner_product (map fsquare cs) (product cis)).
      assert (Ht : length t = 2 ^ length cs) by (unfold t; rewrite coeffs_length, map_length; reflexivity).
      rewrite map_app, (zsum_app CL) by (rewrite !map_length; congruence).
      rewrite !map_map. rewrite (map_ext (fun x => vs (fmul (fmul x ci) (fsquare c))) (fun x => vs (fmul x c))).
      2: { intro x. f_equal. rewrite (fsquare_mul SO). transitivity (fmul (fmul x c) (fmul c ci)); [ring|]. rewrite Hc. ring. }
      rewrite <- !(map_map (fun x => fmul x _) vs). rewrite !zsum_scale.
      rewrite <- !zsum_map_zmul, <- zsum_gp by (rewrite !map_length; congruence). f_equal.
      clear - lo. revert hi. induction lo as [|l lo IH]; intros [|h hi]; cbn [combine map]; try reflexivity. f_equal. apply IH.
  Qed.
  Theorem compute_g_eq M (gens : list C) cs cis : machine_ok M -> Forall valid gens -> (Z.of_nat (length gens) < 2 ^ 32)%Z ->
    length gens = 2 ^ length cs -> Forall2 (fun c ci : S_ => fmul c ci = fone) cs cis ->
    exists P Q, compute_g_for_inner_product M gens (map fsquare cs) (product cis) = Some P /\
      fold_vector fold_point (combine cs cis) gens = [Q] /\ same_point P Q.
  Proof.
    intros HM HV H32 HL HI.
    assert (Hgs : exists gs, Forall2 rep gens gs).
    { clear - HV. induction HV as [|P Ps HP HV (gs & IH)]; [exists []; constructor|].
      destruct (valid_ex CL P HP) as (g & Hg). exists (g :: gs). constructor; assumption. }
    destruct Hgs as (gs & Hgs). pose proof (Forall2_len _ _ _ Hgs) as HLg.
    destruct (multiexp_rep CL M (compute_g_coeffs_for_inner_product (map fsquare cs) (product cis)) gens gs HM) as (P & E & HP).
    { rewrite coeffs_length, map_length. symmetry. exact HL. }
    { exact H32. } { exact Hgs. }
    pose proof (fold_rep (combine cs cis) gens gs Hgs) as HF.
    rewrite gfold_coeffs in HF; [|exact (Forall2_len _ _ _ HI)|exact HI|congruence].
    inversion HF as [|Q ? l ? HQ HN E1 E2]; subst. inversion HN; subst.
    exists P, Q. split; [exact E|]. split; [reflexivity|]. exact (same_rep CL P Q _ _ HP HQ eq_refl).
  Qed.
  Lemma compute_g_panics M (gens : list C) sqs allinv : compute_g_for_inner_product M gens sqs allinv = None <-> length gens <> 2 ^ length sqs.
  Proof.
    unfold compute_g_for_inner_product. rewrite multiexp_panics, coeffs_length. split; congruence.
  Qed.

  (** the in-place fold *)
  Theorem collapse_eq M (g : list C) c ci : machine_ok M -> 2 <= length g ->
    parallel_generator_collapse M g c ci = Some (halve (fold_point (c, ci)) g ++ skipn (length g / 2) g).
  Proof.
    intros [HM _] Hg. unfold parallel_generator_collapse. set (l := length g / 2).
    assert (Hl : 1 <= l) by (apply Nat.div_le_lower_bound; lia).
    assert (Hl2 : 2 * l <= length g) by (apply Nat.mul_div_le; lia).
    set (chunk := if l / cpus M <? cpus M then l else l / cpus M).
    assert (Hc : 0 < chunk). { unfold chunk. destruct (Nat.ltb_spec (l / cpus M) (cpus M)); lia. }
    rewrite (proj2 (Nat.eqb_neq _ _)) by lia. do 2 f_equal. rewrite scope_eq, map_map.
    rewrite (unchunk_zip (fun a b : C => c_add (c_mul a ci) (c_mul b c)) chunk _ Hc).
    - reflexivity.
    - intros a b. unfold t_result, collapse_thread. cbn [t_todo t_chunk].
      exact (fold_writes0 (fun a b : C => c_add (c_mul a ci) (c_mul b c)) a b).
    - rewrite firstn_length, skipn_length. lia.
  Qed.
  Lemma collapse_panics M (g : list C) c ci : machine_ok M -> (parallel_generator_collapse M g c ci = None <-> length g < 2).
  Proof.
    intro HM. split; intro H.
    - destruct (Nat.lt_ge_cases (length g) 2) as [|Hge]; [assumption|]. rewrite collapse_eq in H by assumption. discriminate H.
    - unfold parallel_generator_collapse. rewrite (Nat.div_small (length g) 2 H). rewrite Nat.div_0_l by (destruct HM; lia).
      destruct (0 <? cpus M); reflexivity.
  Qed.
End FoldG.
