(** Challenge scalars: the recoding of 128-bit challenges. *)
From Coq Require Import List Bool ZArith Lia Ring Field.
From Verif Require Import Lib.AbGroup Lib.Abel Model.FieldTrait Model.Curve Model.Util Spec.FieldLaws Spec.CurveSpec
  Spec.CurveLaws Spec.UtilSpec Proofs.FieldGen Proofs.ZtoF Proofs.CurveTop.
Import ListNotations.
Open Scope Z_scope.

(** ** The recoding over the Eisenstein integers a + b w, w^2 = -w - 1 *)
Definition estep (x : Z * Z) (ne : bool * bool) : Z * Z :=
  let '(a, b) := x in
  let a := if fst ne then 2 * a - 1 else 2 * a + 1 in
  let b := 2 * b in
  if snd ne then (- b, a - b) else (a, b).
Definition enorm (x : Z * Z) : Z := fst x * fst x - fst x * snd x + snd x * snd x.
(** a is odd and b even, or a is even and b odd *)
Definition eunit (x : Z * Z) : Prop := Z.odd (fst x) = negb (Z.odd (snd x)).
Lemma odd_twice a : Z.odd (2 * a) = false. Proof. rewrite Z.odd_mul. reflexivity. Qed.
Lemma odd_sub1 a : Z.odd (2 * a - 1) = true. Proof. rewrite Z.odd_sub, odd_twice. reflexivity. Qed.
Lemma odd_add1 a : Z.odd (2 * a + 1) = true. Proof. rewrite Z.odd_add, odd_twice. reflexivity. Qed.
Lemma estep_odd x n e : Z.odd (fst (estep x (n, e))) = negb e /\ Z.odd (snd (estep x (n, e))) = e.
Proof.
  destruct x as [a b]. unfold estep. cbn [fst snd]. destruct n, e; cbn [fst snd];
    rewrite ?Z.odd_opp, ?Z.odd_sub, ?odd_sub1, ?odd_add1, ?odd_twice; split; reflexivity.
Qed.
Lemma estep_unit x ne : eunit (estep x ne).
Proof. destruct ne as [n e]. unfold eunit. destruct (estep_odd x n e) as [-> ->]. destruct e; reflexivity. Qed.
Lemma estep_inj x y s t : eunit x -> eunit y -> estep x s = estep y t -> x = y /\ s = t.
Proof.
  intros Hx Hy H. destruct s as [n e], t as [n' e']. destruct (estep_odd x n e) as [_ E1]. destruct (estep_odd y n' e') as [_ E2].
  assert (e = e') by (rewrite <- E1, <- E2, H; reflexivity). subst e'. clear E1 E2.
  destruct x as [a b], y as [a' b']. unfold eunit in *. cbn [fst snd] in Hx, Hy. unfold estep in H. cbn [fst snd] in H.
  assert (K : (if n then 2 * a - 1 else 2 * a + 1) = (if n' then 2 * a' - 1 else 2 * a' + 1) /\ b = b').
  { destruct e.
    - pose proof (f_equal fst H) as H1. pose proof (f_equal snd H) as H2. cbn [fst snd] in H1, H2. split; lia.
    - pose proof (f_equal fst H) as H1. pose proof (f_equal snd H) as H2. cbn [fst snd] in H1, H2. split; lia. }
  destruct K as [K <-]. destruct n, n'.
  - split; [f_equal; lia|reflexivity].
  - exfalso. assert (a = a' + 1) as -> by lia. rewrite Z.odd_add in Hx. change (Z.odd 1) with true in Hx.
    rewrite <- Hy in Hx. destruct (Z.odd a'); discriminate Hx.
  - exfalso. assert (a' = a + 1) as -> by lia. rewrite Z.odd_add in Hy. change (Z.odd 1) with true in Hy.
    rewrite <- Hx in Hy. destruct (Z.odd a); discriminate Hy.
  - split; [f_equal; lia|reflexivity].
Qed.
Lemma erun_unit l : forall x, eunit x -> eunit (fold_left estep l x).
Proof. induction l as [|s l IH]; intros x H; [exact H|]. cbn [fold_left]. apply IH, estep_unit. Qed.
Lemma erun_inj x : eunit x -> forall l l', length l = length l' -> fold_left estep l x = fold_left estep l' x -> l = l'.
Proof.
  intros Hx l. induction l as [|s l IH] using rev_ind; intros l' HL H.
  - destruct l'; [reflexivity|discriminate HL].
  - destruct l' as [|s' l' _] using rev_ind; [rewrite app_length in HL; cbn in HL; lia|].
    rewrite !app_length in HL. cbn [length] in HL. rewrite !fold_left_app in H. cbn [fold_left] in H.
    apply estep_inj in H; [|apply erun_unit, Hx|apply erun_unit, Hx]. destruct H as [H <-]. f_equal. apply IH; [lia|exact H].
Qed.
Lemma enorm_step x ne m : 0 <= m -> enorm x <= m * m -> enorm (estep x ne) <= (2 * m + 1) * (2 * m + 1).
Proof.
  intros Hm H. destruct x as [a b], ne as [n e]. unfold enorm in H. cbn [fst snd] in H.
  assert (Habs : Z.abs (2 * a - b) <= 2 * m).
  { apply Z.abs_le. assert ((2 * a - b) * (2 * a - b) <= (2 * m) * (2 * m)) by nia. split; nia. }
  assert (E : enorm (estep (a, b) (n, e)) = 4 * (a * a - a * b + b * b) + (if n then - (2 * (2 * a - b)) else 2 * (2 * a - b)) + 1).
  { unfold enorm, estep. cbn [fst snd]. destruct n, e; cbn [fst snd]; ring. }
  rewrite E. destruct n; lia.
Qed.
Lemma enorm_run l : forall x m, 0 <= m -> enorm x <= m * m ->
  enorm (fold_left estep l x) <= (2 ^ Z.of_nat (length l) * (m + 1) - 1) * (2 ^ Z.of_nat (length l) * (m + 1) - 1).
Proof.
  induction l as [|s l IH]; intros x m Hm H.
  - cbn [fold_left length]. change (2 ^ Z.of_nat 0) with 1. lia.
  - cbn [fold_left length]. rewrite Nat2Z.inj_succ, Z.pow_succ_r by lia.
    specialize (IH (estep x s) (2 * m + 1) ltac:(lia) (enorm_step x s m Hm H)).
    replace (2 ^ Z.of_nat (length l) * (2 * m + 1 + 1)) with (2 * 2 ^ Z.of_nat (length l) * (m + 1)) in IH by ring. exact IH.
Qed.
Lemma enorm_sub x y : enorm (fst x - fst y, snd x - snd y) <= 2 * enorm x + 2 * enorm y.
Proof.
  destruct x as [a b], y as [a' b']. unfold enorm. cbn [fst snd].
  assert (0 <= (a + a') * (a + a') - (a + a') * (b + b') + (b + b') * (b + b')); [|nia].
  generalize (a + a') (b + b'). intros x y. nia.
Qed.
Lemma enorm_pos x : x <> (0, 0) -> 0 < enorm x.
Proof.
  destruct x as [a b]. unfold enorm. cbn [fst snd]. intro H.
  assert (a <> 0 \/ b <> 0) by (destruct (Z.eq_dec a 0); [right; intro; apply H; f_equal; assumption|left; assumption]).
  clear H. nia.
Qed.

Section Embed.
  Context {F : Field} {p v} (FL : FieldLaws F p v).
  Let OL := fl_ops _ _ _ FL.
  Add Field Ff : (ffield OL).
  Notation B := (f_BETA (f := F)).
  Definition emb (x : Z * Z) : F := fadd (fz (fst x)) (fmul (fz (snd x)) B).
  Lemma beta_root : fadd (fadd (fmul B B) B) fone = fzero.
  Proof.
    destruct (fl_beta _ _ _ FL) as [H1 H3].
    assert (Hp : 2 < p) by exact (ol_odd _ _ _ OL).
    assert (E : fmul (fsub B fone) (fadd (fadd (fmul B B) B) fone) = fzero).
    { transitivity (fsub (fmul B (fmul B B)) fone); [ring|].
      assert (fmul B (fmul B B) = fone) as ->; [|ring]. apply (ol_inj _ _ _ OL).
      rewrite !(ol_mul _ _ _ OL), (ol_one _ _ _ OL), Zmult_mod_idemp_r. rewrite <- H3. f_equal. ring. }
    apply (fmul_zero OL) in E. destruct E as [E|E]; [|exact E]. exfalso. apply (proj1 (fsub_zero OL _ _)) in E.
    apply H1. transitivity (v fone); [f_equal; exact E|exact (ol_one _ _ _ OL)].
  Qed.
  Lemma emb_step x n e : emb (estep x (n, e)) =
    let acc := fadd (emb x) (emb x) in
    let acc := if n then fsub acc fone else fadd acc fone in
    if e then fmul acc B else acc.
  Proof.
    pose proof beta_root as R. assert (R' : fmul B B = fsub (fneg B) fone) by (apply (proj1 (fsub_zero OL _ _)); rewrite <- R; ring).
    destruct x as [a b]. unfold emb, estep. cbn [fst snd]. cbv zeta.
    assert (F2 : forall z, @fz F (2 * z) = fadd (fz z) (fz z)) by (intro z; rewrite <- (fz_add OL); f_equal; lia).
    destruct n, e; cbn [fst snd]; rewrite ?(fz_sub OL), ?(fz_add OL), ?(fz_opp OL), ?F2, ?(fz_sub OL), ?(fz_add OL), ?F2; change (@fz F 1) with (@fone F);
      generalize dependent (f_BETA (f := F)); intros B' _ R'; generalize (@fz F a), (@fz F b); intros x y.
    - transitivity (fadd (fmul (fsub (fadd x x) fone) B') (fmul (fadd y y) (fsub (fneg B') fone))); [ring|rewrite <- R'; ring].
    - ring.
    - transitivity (fadd (fmul (fadd (fadd x x) fone) B') (fmul (fadd y y) (fsub (fneg B') fone))); [ring|rewrite <- R'; ring].
    - ring.
  Qed.
  Lemma emb_zero x : emb x = fzero -> enorm x < p -> x = (0, 0).
  Proof.
    intros H HN. destruct (Z.eq_dec (fst x) 0) as [Ea|Ea], (Z.eq_dec (snd x) 0) as [Eb|Eb];
      try (destruct x; cbn [fst snd] in *; congruence).
    all: exfalso; assert (Hx : x <> (0, 0)) by (intros ->; cbn [fst snd] in *; congruence);
      pose proof (enorm_pos x Hx) as HP.
    all: assert (E : @fz F (enorm x) = fz 0).
    all: try (apply (fz_eq OL) in E; rewrite Z.mod_small in E by lia; rewrite Z.mod_0_l in E by lia; lia).
    all: change (@fz F 0) with (@fzero F); pose proof beta_root as R;
      unfold enorm; rewrite (fz_add OL), (fz_sub OL), !(fz_mul OL);
      transitivity (fadd (fmul (emb x) (fsub (fsub (fz (fst x)) (fz (snd x))) (fmul (fz (snd x)) B)))
        (fmul (fmul (fz (snd x)) (fz (snd x))) (fadd (fadd (fmul B B) B) fone)));
      [unfold emb; ring|rewrite R, H; ring].
  Qed.
  Lemma emb_sub x y : emb (fst x - fst y, snd x - snd y) = fsub (emb x) (emb y).
  Proof. unfold emb. cbn [fst snd]. rewrite !(fz_sub OL). ring. Qed.
  Definition erun (ch : Z) : Z * Z := fold_left estep (challenge_pairs ch) (3, 0).
  Lemma erun_bound ch : enorm (erun ch) <= (2 ^ 65 - 1) * (2 ^ 65 - 1).
  Proof.
    pose proof (enorm_run (challenge_pairs ch) (3, 0) 3 ltac:(lia) ltac:(cbv; congruence)) as H.
    unfold challenge_pairs at 2 3 in H. rewrite map_length, seq_length in H. exact H.
  Qed.
  Lemma start_unit : eunit (3, 0). Proof. reflexivity. Qed.
  Lemma emb_inj ch ch' : emb (erun ch) = emb (erun ch') -> challenge_pairs ch = challenge_pairs ch'.
  Proof.
    intro H. apply (erun_inj (3, 0) start_unit); [unfold challenge_pairs; rewrite !map_length; reflexivity|].
    change (erun ch = erun ch'). set (x := erun ch) in *. set (y := erun ch') in *.
    assert (Hd : (fst x - fst y, snd x - snd y) = (0, 0)).
    { apply emb_zero; [rewrite emb_sub, H; ring|]. pose proof (enorm_sub x y). pose proof (erun_bound ch). pose proof (erun_bound ch').
      destruct (fl_size _ _ _ FL) as [Hs _]. fold x in H1. fold y in H2.
      assert (4 * ((2 ^ 65 - 1) * (2 ^ 65 - 1)) < 2 ^ 254) by reflexivity. lia. }
    destruct x, y. cbn [fst snd] in Hd. injection Hd as ? ?. f_equal; lia.
  Qed.
  Lemma emb_nonzero ch : emb (erun ch) <> fzero.
  Proof.
    intro H. pose proof (erun_unit (challenge_pairs ch) (3, 0) start_unit) as U. fold (erun ch) in U.
    assert (E : erun ch = (0, 0)).
    { apply emb_zero; [exact H|]. pose proof (erun_bound ch). destruct (fl_size _ _ _ FL) as [Hs _].
      assert ((2 ^ 65 - 1) * (2 ^ 65 - 1) < 2 ^ 254) by reflexivity. lia. }
    rewrite E in U. discriminate U.
  Qed.
End Embed.

Section Scalar.
  Context {F1 F2 : Field} {p1 v1 p2 v2} (L1 : FieldLaws F1 p1 v1) (L2 : FieldLaws F2 p2 v2).
  Let O2 := fl_ops _ _ _ L2.
  Add Field Ff2 : (ffield O2).

  Lemma land_one z k : 0 <= k -> (Z.land (Z.shiftr z k) 1 =? 1) = Z.testbit z k.
  Proof.
    intro Hk. change 1 with (Z.ones 1) at 1. rewrite Z.land_ones by lia. change (2 ^ 1) with 2.
    rewrite Zmod_odd. rewrite <- Z.bit0_odd, Z.shiftr_spec by lia. rewrite Z.add_0_l. destruct (Z.testbit z k); reflexivity.
  Qed.
  Definition sstep (acc : F2) (ne : bool * bool) : F2 :=
    let acc := fadd acc acc in
    let acc := if fst ne then fsub acc fone else fadd acc fone in
    if snd ne then fmul acc f_BETA else acc.
  Lemma challenge_run (ch : F1) : @get_challenge_scalar F1 F2 ch = fold_left sstep (challenge_pairs (v1 ch)) (fadd (fadd fone fone) fone).
  Proof.
    unfold get_challenge_scalar, challenge_pairs. rewrite (fl_lower _ _ _ L1).
    assert (H : forall i, In i (seq 1 63) -> (i < 64)%nat) by (intros i Hi; apply in_seq in Hi; lia).
    revert H. generalize (seq 1 63), (fadd (fadd (@fone F2) fone) fone). intro l. induction l as [|i l IH]; intros acc H; [reflexivity|].
    cbn [fold_left map]. rewrite IH by (intros j Hj; apply H; right; exact Hj). specialize (H i (or_introl eq_refl)).
    rewrite !land_one by lia. rewrite !Z.mod_pow2_bits_low by lia.
    replace (Z.of_nat (i * 2)) with (2 * Z.of_nat i) by lia. replace (Z.of_nat (i * 2 + 1)) with (2 * Z.of_nat i + 1) by lia. reflexivity.
  Qed.
  Lemma run_emb l : forall x, fold_left sstep l (emb x) = emb (fold_left estep l x).
  Proof.
    induction l as [|[n e] l IH]; intro x; [reflexivity|]. cbn [fold_left]. rewrite <- IH. f_equal. rewrite (emb_step L2). reflexivity.
  Qed.
  Lemma challenge_emb (ch : F1) : @get_challenge_scalar F1 F2 ch = emb (erun (v1 ch)).
  Proof.
    rewrite challenge_run. unfold erun. rewrite <- run_emb. f_equal. unfold emb. cbn [fst snd fz fposz]. ring.
  Qed.
  Lemma pairs_iff a b : challenge_pairs a = challenge_pairs b <-> forall i, 2 <= i < 128 -> Z.testbit a i = Z.testbit b i.
  Proof.
    unfold challenge_pairs. split.
    - intros H i Hi. pose proof (ext_in_map H) as E. specialize (E (Z.to_nat (i / 2))). cbv beta in E.
      assert (Hin : In (Z.to_nat (i / 2)) (seq 1 63)).
      { apply in_seq. pose proof (Z.div_mod i 2 ltac:(lia)). pose proof (Z.mod_pos_bound i 2 ltac:(lia)). lia. }
      specialize (E Hin). rewrite Z2Nat.id in E by (apply Z.div_pos; lia). injection E as E0 E1.
      pose proof (Z.div_mod i 2 ltac:(lia)). pose proof (Z.mod_pos_bound i 2 ltac:(lia)).
      assert (K : i = 2 * (i / 2) \/ i = 2 * (i / 2) + 1) by lia. destruct K as [-> | ->]; [|].
      + replace (2 * (i / 2) / 2) with (i / 2) in E0 by (rewrite Z.mul_comm, Z.div_mul; lia). exact E0.
      + replace ((2 * (i / 2) + 1) / 2) with (i / 2) in E1 by (rewrite Z.mul_comm, Z.div_add_l; cbn; lia). exact E1.
    - intro H. apply map_ext_in. intros i Hi. apply in_seq in Hi. rewrite !H by lia. reflexivity.
  Qed.
  Theorem challenge_injective (a b : F1) : @get_challenge_scalar F1 F2 a = get_challenge_scalar b <->
    forall i, 2 <= i < 128 -> Z.testbit (v1 a) i = Z.testbit (v1 b) i.
  Proof.
    rewrite <- pairs_iff. split; intro H.
    - rewrite !challenge_emb in H. exact (emb_inj L2 _ _ H).
    - rewrite !challenge_run, H. reflexivity.
  Qed.
  Theorem challenge_nonzero (a : F1) : exists i, f_invert (@get_challenge_scalar F1 F2 a) = Some i /\ fmul (get_challenge_scalar a) i = fone.
  Proof.
    set (s := @get_challenge_scalar F1 F2 a).
    destruct (fl_invert _ _ _ L2 s) as (i & E & H).
    - intro H. apply (emb_nonzero L2 (v1 a)). rewrite <- challenge_emb. apply (v_eq_zero O2). exact H.
    - exists i. split; [exact E|]. apply (ol_inj _ _ _ O2). rewrite (ol_mul _ _ _ O2), (ol_one _ _ _ O2). exact H.
  Qed.
End Scalar.

Section Ladder.
  Context {C : Curve} {q vb r vs} (CL : CurveLaws C q vb r vs).
  Context {F1 : Field} {p1 v1} (L1 : FieldLaws F1 p1 v1).
  Notation G := (cl_group _ _ _ _ _ CL).
  Notation pt := (cl_point _ _ _ _ _ CL).
  Notation rep := (rep CL).
  Let SL := cl_scalar _ _ _ _ _ CL.
  Let SO := fl_ops _ _ _ SL.

  Lemma endo_pt g : endo (pt g) = pt (zmul (vs (BETA_SCALAR C)) g).
  Proof.
    destruct (pt g) as [[x y]|] eqn:E; cbn [endo].
    - rewrite (cl_endo _ _ _ _ _ CL g x y E). reflexivity.
    - assert (g = g0) as ->. { apply (cl_inj _ _ _ _ _ CL). rewrite E. symmetry. apply (cl_infinity _ _ _ _ _ CL). }
      rewrite zmul_g0. symmetry. apply (cl_infinity _ _ _ _ _ CL).
  Qed.
  Lemma zmul_vs_mod x (g : G) : zmul (x mod r) g = zmul x g. Proof. apply zmul_mod, (cl_order _ _ _ _ _ CL). Qed.
  Lemma ladder_ex g l : forall acc, f_BETA = BETA_SCALAR C -> ladder (pt g) l (pt (zmul (vs acc) g)) (pt (zmul (vs (fold_left (@sstep (Scalar C)) l acc)) g)).
  Proof.
    induction l as [|[n e] l IH]; intros acc HB; [constructor|]. cbn [fold_left].
    apply ladder_cons with (D := pt (gp (zmul (vs acc) g) (zmul (vs acc) g)))
      (E := pt (gp (gp (zmul (vs acc) g) (zmul (vs acc) g)) (if n then gn g else g))).
    - apply (cl_sum _ _ _ _ _ CL). reflexivity.
    - destruct n; [rewrite <- (cl_opposite _ _ _ _ _ CL)|]; apply (cl_sum _ _ _ _ _ CL); reflexivity.
    - specialize (IH (sstep acc (n, e)) HB).
      match goal with |- ladder _ _ ?X _ => replace X with (pt (zmul (vs (sstep acc (n, e))) g)) end; [exact IH|].
      assert (E1 : zmul (vs (if n then fsub (fadd acc acc) fone else fadd (fadd acc acc) fone)) g
                   = gp (gp (zmul (vs acc) g) (zmul (vs acc) g)) (if n then gn g else g)).
      { destruct n; [rewrite (ol_sub _ _ _ SO)|rewrite (ol_add _ _ _ SO)]; rewrite zmul_vs_mod, (ol_add _ _ _ SO), (ol_one _ _ _ SO);
          [rewrite zmul_sub|rewrite zmul_add]; rewrite zmul_vs_mod, zmul_add, zmul_1; reflexivity. }
      unfold sstep. cbn [fst snd]. cbv zeta. destruct e; [|rewrite E1; reflexivity].
      rewrite endo_pt, <- E1, <- zmul_mul, HB, (ol_mul _ _ _ SO), zmul_vs_mod. do 2 f_equal. ring.
  Qed.
  Theorem challenge_ladder (P : C) A (ch : F1) : f_BETA = BETA_SCALAR C -> represents P A -> exists B2 B3 D,
    sum_of A A B2 /\ sum_of B2 A B3 /\ ladder A (challenge_pairs (v1 ch)) B3 D /\
    represents (c_mul P (get_challenge_scalar ch)) D.
  Proof.
    intros HB HP. destruct (rep_ex CL P A HP) as (g & -> & Hg).
    exists (pt (gp g g)), (pt (gp (gp g g) g)), (pt (zmul (vs (@get_challenge_scalar F1 (Scalar C) ch)) g)).
    split; [apply (cl_sum _ _ _ _ _ CL); reflexivity|]. split; [apply (cl_sum _ _ _ _ _ CL); reflexivity|].
    split; [|apply (rep_mul CL), Hg].
    rewrite (challenge_run L1).
    pose proof (ladder_ex g (challenge_pairs (v1 ch)) (fadd (fadd fone fone) fone) HB) as H.
    replace (zmul (vs (fadd (fadd fone fone) fone)) g) with (gp (gp g g) g) in H; [exact H|].
    rewrite (ol_add _ _ _ SO), zmul_vs_mod, (ol_add _ _ _ SO), !(ol_one _ _ _ SO), zmul_add, zmul_vs_mod. reflexivity.
  Qed.
End Ladder.
