(** Provers that can be rewound: for every true claim there is one that meets the
    hypotheses of the extraction (property C71). *)
From Coq Require Import ZArith List Bool Arith Lia Ring Field.
From Verif Require Import Lib.AbGroup Lib.Abel Model.FieldTrait Model.Circuits Model.Curve Model.Util Model.Params Model.Opening
  Spec.FieldLaws Spec.CurveSpec Spec.CurveLaws Spec.UtilSpec Spec.SystemSpec Spec.ProofSpec Spec.VerifySpec Spec.RecursiveCircuitSpec Spec.ExtractSpec
  Proofs.FieldGen Proofs.ZtoF Proofs.SumP Proofs.CurveTop Proofs.MultiexpP Proofs.FoldP Proofs.ChallengeP Proofs.UtilTop Proofs.IdentityP Proofs.OpeningP Proofs.OpeningTop Proofs.ProverLemmas Proofs.DeferredTop Proofs.VerifyP Proofs.ExtractP.
Import ListNotations.
Open Scope nat_scope.
Open Scope list_scope.

(** *** Four challenges with square roots: the squares of 2^32 + 1, + 3, + 5, + 7,
    times BETA (their bit 127 is set, as in every challenge of a transcript) *)
Definition four (b : branch) : Z :=
  (2 ^ 127 + match b with
  | B1 => 113427455640312821149846516458828682580
  | B2 => 108110543657173157657078366713100457300
  | B3 => 106781315661388241785039250781275247956
  | B4 => 111765920645581676307275605752719693140
  end)%Z.
Definition four_root (b : branch) : Z := (2 ^ 32 + match b with B1 => 1 | B2 => 3 | B3 => 5 | B4 => 7 end)%Z.
Lemma four_run b : erun (four b) = (0, four_root b * four_root b)%Z.
Proof. destruct b; vm_compute; reflexivity. Qed.
Lemma four_range b : (0 <= four b < 2 ^ 128)%Z.
Proof. destruct b; vm_compute; split; congruence. Qed.
Lemma four_differ b b' : challenge_pairs (four b) = challenge_pairs (four b') -> b = b'.
Proof. destruct b, b'; try reflexivity; intro H; vm_compute in H; discriminate H. Qed.

Section Honest.
  Context {C : Curve} {q vb r vs} (CL : CurveLaws C q vb r vs).
  Notation G := (cl_group _ _ _ _ _ CL).
  Notation rep := (rep CL).
  Notation F := (Scalar C).
  Let SL := cl_scalar _ _ _ _ _ CL.
  Let SO := fl_ops _ _ _ SL.
  Add Field Fs : (ffield SO).
  Infix "[+]" := fadd (at level 50, left associativity).
  Infix "[*]" := fmul (at level 40, left associativity).
  Notation msum := (msum CL).
  Notation smul := (smul CL).

  Lemma four_packed : exists (packed : branch -> F) (c ci : branch -> F),
    (forall b, vs (packed b) = four b) /\ (forall b, f_sqrt (get_challenge_scalar (F2 := F) (packed b)) = Some (c b)) /\ (forall b, c b [*] ci b = fone) /\
    (forall b b', b <> b' -> get_challenge_scalar (F2 := F) (packed b) <> get_challenge_scalar (packed b')).
  Proof.
    assert (X : forall b, exists pk c ci : F, vs pk = four b /\ f_sqrt (get_challenge_scalar (F2 := F) pk) = Some c /\ c [*] ci = fone).
    { intro b. destruct (ol_surj _ _ _ SO (four b)) as (pk & Hpk).
      { destruct (fl_size _ _ _ SL) as [Hs _]. pose proof (four_range b). assert (2 ^ 128 < 2 ^ 254)%Z by reflexivity. lia. }
      exists pk. assert (E : get_challenge_scalar pk = fz (four_root b) [*] (@f_BETA F) [*] (@f_BETA F) [*] (fz (four_root b) [*] (@f_BETA F) [*] (@f_BETA F)) :> F).
      { rewrite (challenge_emb SL SL), Hpk, four_run. unfold emb. cbn [fst snd]. rewrite (fz_mul SO). cbn [fz].
        assert (HB3 : (@f_BETA F) [*] (@f_BETA F) [*] (@f_BETA F) = fone :> F).
        { apply (ol_inj _ _ _ SO). rewrite !(ol_mul _ _ _ SO), (ol_one _ _ _ SO), <- (proj2 (fl_beta _ _ _ SL)). rewrite Z.mul_mod_idemp_l; [f_equal; ring|]. pose proof (p_pos SO). lia. }
        transitivity (fz (four_root b) [*] fz (four_root b) [*] (@f_BETA F) [*] ((@f_BETA F) [*] (@f_BETA F) [*] (@f_BETA F))); [rewrite HB3; ring|ring]. }
      destruct (f_sqrt (get_challenge_scalar (F2 := F) pk)) as [c|] eqn:Es.
      - exists c. destruct (challenge_nonzero SL SL pk) as (i & _ & Hi). exists (c [*] i). split; [exact Hpk|]. split; [reflexivity|].
        rewrite <- Hi, <- (sqrt_eq CL _ _ Es). ring.
      - exfalso. eapply (fl_sqrt_none _ _ _ SL _ Es). rewrite E, (ol_mul _ _ _ SO). reflexivity. }
    destruct (X B1) as (p1 & c1 & i1 & A1). destruct (X B2) as (p2 & c2 & i2 & A2). destruct (X B3) as (p3 & c3 & i3 & A3). destruct (X B4) as (p4 & c4 & i4 & A4).
    exists (fun b => match b with B1 => p1 | B2 => p2 | B3 => p3 | B4 => p4 end), (fun b => match b with B1 => c1 | B2 => c2 | B3 => c3 | B4 => c4 end), (fun b => match b with B1 => i1 | B2 => i2 | B3 => i3 | B4 => i4 end).
    assert (HV : forall b, vs (match b with B1 => p1 | B2 => p2 | B3 => p3 | B4 => p4 end) = four b) by (intros []; tauto).
    split; [exact HV|]. split; [intros []; tauto|]. split; [intros []; tauto|].
    intros b b' Hb E. apply Hb. rewrite !(challenge_emb SL SL), !HV in E. apply (emb_inj SL) in E. apply four_differ, E.
  Qed.

  (** *** The honest prover, for the challenges [packed] *)
  Variables (packed c ci : branch -> F).
  Hypothesis Hc : forall b, f_sqrt (get_challenge_scalar (F2 := F) (packed b)) = Some (c b).
  Hypothesis Hi : forall b, c b [*] ci b = fone.
  Hypothesis Hd : forall b b', b <> b' -> get_challenge_scalar (F2 := F) (packed b) <> get_challenge_scalar (packed b').
  Fixpoint pt_sum (ss : list F) (Ps : list C) : C :=
    match ss, Ps with s :: ss, P :: Ps => c_add (c_mul P s) (pt_sum ss Ps) | _, _ => c_zero end.
  Lemma pt_sum_rep ss : forall Ps gs, Forall2 rep Ps gs -> rep (pt_sum ss Ps) (msum ss gs).
  Proof.
    induction ss as [|s ss IH]; intros Ps gs H; [exact (rep0 CL)|]. destruct H as [|P g Ps gs HP H]; [exact (rep0 CL)|].
    cbn [pt_sum]. rewrite (msum_cons CL). apply rep_add; [apply rep_mul, HP|apply IH, H].
  Qed.
  Fixpoint honest (k : nat) (gens : list C) (a b : list F) : prover C :=
    match k with
    | 0 => Ends a (hd c_zero gens)
    | S k => let l := 2 ^ k in
        Sends (mkRound [pt_sum (firstn l a) (skipn l gens)] [pt_sum (skipn l a) (firstn l gens)]
                       [dot (firstn l a) (skipn l b)] [dot (skipn l a) (firstn l b)]) packed
          (fun br => honest k (halve (fold_point (c br, ci br)) gens) (halve (fold_scalar (ci br, c br)) a) (halve (fold_scalar (c br, ci br)) b))
    end.
  Lemma honest_four k : forall gens a b, four_ways (honest k gens a b).
  Proof. induction k as [|k IH]; intros gens a b; [constructor|]. cbn [honest]. constructor; [exact Hd|]. intro br. apply IH. Qed.
  Lemma honest_runs k : forall gens gs a b, Forall2 rep gens gs -> length gens = 2 ^ k -> length a = 2 ^ k -> length b = 2 ^ k ->
    forall pf packeds, run (honest k gens a b) pf packeds ->
    length (mo_rounds pf) = k /\
    Forall (fun round => 1 <= length (ip_L round) /\ 1 <= length (ip_R round) /\ 1 <= length (ip_l round) /\
                         1 <= length (ip_r round) /\ Forall valid (ip_L round) /\ Forall valid (ip_R round)) (mo_rounds pf) /\
    exists cs cis Ls Rs ls rs gL gR a0 gg bb, mo_a pf = [a0] /\ rooted packeds cs /\ inverses cs cis /\
        Forall2 (fun round L => nth_error (ip_L round) 0 = Some L) (mo_rounds pf) Ls /\
        Forall2 (fun round R => nth_error (ip_R round) 0 = Some R) (mo_rounds pf) Rs /\
        Forall2 (fun round l => nth_error (ip_l round) 0 = Some l) (mo_rounds pf) ls /\
        Forall2 (fun round r => nth_error (ip_r round) 0 = Some r) (mo_rounds pf) rs /\
        Forall2 rep Ls gL /\ Forall2 rep Rs gR /\ fold_vector fold_point (combine cs cis) gens = [mo_g pf] /\ rep (mo_g pf) gg /\
        fold_vector fold_scalar (combine cs cis) b = [bb] /\
        gp (msum a gs) (gp (msum (squares cs) gL) (msum (squares cis) gR)) = smul a0 gg /\
        dot a b [+] (dot (squares cs) ls [+] dot (squares cis) rs) = a0 [*] bb.
  Proof.
    induction k as [|k IH]; intros gens gs a b HG L1 L2 L3 pf packeds HR.
    - cbn [honest] in HR. inversion HR; subst. cbn [mo_rounds mo_a mo_g length]. split; [reflexivity|]. split; [constructor|].
      destruct gens as [|g0 [|]]; try discriminate L1. destruct a as [|a0 [|]]; try discriminate L2. destruct b as [|b0 [|]]; try discriminate L3.
      inversion HG as [|? gg ? nl Hg Hn]; subst. inversion Hn; subst.
      exists [], [], [], [], [], [], [], [], a0, gg, b0. repeat (split; [first [reflexivity|constructor]|]). split; [exact Hg|]. split; [reflexivity|]. split.
      + rewrite (msum_cons CL). unfold ExtractP.msum. cbn [squares map MultiexpP.zsum]. abel.
      + unfold dot. cbn [length fsum squares map]. unfold coeff. cbn [nth]. ring.
    - cbn [honest] in HR. rewrite Nat.pow_succ_r' in L1, L2, L3.
      destruct (split_half gens (2 ^ k) L1) as (glo & ghi & -> & Lg1 & Lg2). destruct (split_half a (2 ^ k) L2) as (alo & ahi & -> & La1 & La2).
      destruct (split_half b (2 ^ k) L3) as (blo & bhi & -> & Lb1 & Lb2).
      apply Forall2_app_inv_l in HG. destruct HG as (hlo & hhi & HGl & HGh & ->). pose proof (Forall2_len _ _ _ HGl) as Lh1. pose proof (Forall2_len _ _ _ HGh) as Lh2.
      assert (FS : forall (A : Type) (x y : list A), length x = 2 ^ k -> firstn (2 ^ k) (x ++ y) = x /\ skipn (2 ^ k) (x ++ y) = y).
      { intros A x y <-. rewrite firstn_app, firstn_all, skipn_app, skipn_all, Nat.sub_diag. cbn [firstn skipn app]. rewrite app_nil_r. split; reflexivity. }
      destruct (FS _ alo ahi La1) as [E1 E2]. destruct (FS _ blo bhi Lb1) as [E3 E4]. destruct (FS _ glo ghi Lg1) as [E5 E6]. cbv zeta in HR. rewrite E1, E2, E3, E4, E5, E6 in HR.
      inversion HR as [|round pk0 next br rounds aa g packeds' HR' X1 X2 X3]; subst. clear HR. cbn [mo_rounds mo_a mo_g].
      pose proof (halve_rep CL (c br, ci br) _ _ (Forall2_app HGl HGh)) as HG'.
      assert (Hl : forall A (op : A -> A -> A) (x y : list A), length x = 2 ^ k -> length y = 2 ^ k -> length (halve op (x ++ y)) = 2 ^ k).
      { intros A op x y Hx Hy. rewrite halve_length, app_length, Hx, Hy. replace (2 ^ k + 2 ^ k) with (2 ^ k * 2) by lia. apply Nat.div_mul. lia. }
      destruct (IH _ _ _ _ HG' (Hl _ _ _ _ Lg1 Lg2) (Hl _ _ _ _ La1 La2) (Hl _ _ _ _ Lb1 Lb2) _ _ HR')
        as (HL & HW & cs & cis & Ls & Rs & ls & rs & gL & gR & a0 & gg & bb & Ea & R1 & R2 & K1 & K2 & K3 & K4 & K5 & K6 & K7 & K8 & K9 & K10 & K11).
      cbn [mo_rounds mo_a mo_g] in *. pose proof (pt_sum_rep alo _ _ HGh) as RL. pose proof (pt_sum_rep ahi _ _ HGl) as RR.
      split; [cbn [length]; congruence|]. split.
      { constructor; [|exact HW]. cbn [ip_L ip_R ip_l ip_r length]. do 4 (split; [lia|]). split; (constructor; [eexists; first [exact RL|exact RR]|constructor]). }
      exists (c br :: cs), (ci br :: cis), (pt_sum alo ghi :: Ls), (pt_sum ahi glo :: Rs), (dot alo bhi :: ls), (dot ahi blo :: rs), (msum alo hhi :: gL), (msum ahi hlo :: gR), a0, gg, bb.
      split; [exact Ea|]. split; [constructor; [apply Hc|exact R1]|]. split; [constructor; [apply Hi|exact R2]|].
      split; [constructor; [reflexivity|exact K1]|]. split; [constructor; [reflexivity|exact K2]|]. split; [constructor; [reflexivity|exact K3]|]. split; [constructor; [reflexivity|exact K4]|].
      split; [constructor; [exact RL|exact K5]|]. split; [constructor; [exact RR|exact K6]|]. split; [exact K7|]. split; [exact K8|]. split; [exact K9|].
      rewrite !halve_app in K10 by congruence. rewrite !halve_app in K11 by congruence. split.
      + pose proof (zsum_round CL (c br) (ci br) (Hi br) alo ahi hlo hhi ltac:(congruence) ltac:(congruence) ltac:(congruence)) as X.
        change (msum (map (fun '(l, h) => fold_scalar (ci br, c br) l h) (combine alo ahi)) (map (fun '(l, h) => gfold CL (c br, ci br) l h) (combine hlo hhi))
          = gp (gp (gp (msum alo hlo) (msum ahi hhi)) (smul (c br [*] c br) (msum alo hhi))) (smul (ci br [*] ci br) (msum ahi hlo))) in X.
        rewrite X in K10. rewrite <- K10.
        rewrite (msum_app CL) by congruence. unfold squares. cbn [map]. rewrite !(msum_cons CL). abel.
      + rewrite <- K11, (dot_round CL (c br) (ci br) (Hi br)) by congruence. unfold squares. cbn [map]. rewrite !(IdentityP.dot_cons SO), (dot_app SO) by congruence. ring.
  Qed.
  Theorem honest_meets k generators v x edge : 1 <= k -> Forall valid generators -> length generators = 2 ^ k -> length v = 2 ^ k ->
    let claim := mkOpening (pt_sum v generators) (eval_at v x) x edge in
    let p := honest k generators v (powers x (2 ^ k)) in
    valid (po_commitment claim) /\ true_claim generators claim v /\ four_ways p /\ sound_runs generators 1 k p 0 claim.
  Proof.
    intros Hk HV HL Hv claim p. destruct (valid_reps CL _ HV) as (gs & HG). pose proof (Forall2_len _ _ _ HG) as EL.
    pose proof (pt_sum_rep v _ _ HG) as HP. split; [eexists; exact HP|]. split; [|split; [apply honest_four|]].
    - split.
      + apply (commitment_rep CL _ gs _ _ _ HG). split; [lia|]. unfold position. cbn [claim po_right_edge]. destruct edge.
        * replace (length gs - length v) with 0 by lia. exact HP.
        * replace (length v) with (length gs) by congruence. rewrite firstn_all. exact HP.
      + cbn [claim po_opening po_right_edge po_point]. rewrite (value_eq CL). unfold offset. replace (length generators - length v) with 0 by lia. destruct edge; cbn [fpow]; ring.
    - intros pf packeds HR.
      destruct (honest_runs k generators gs v (powers x (2 ^ k)) HG HL Hv ltac:(unfold powers; rewrite map_length, seq_length; reflexivity) pf packeds HR)
        as (HK & HW & cs & cis & Ls & Rs & ls & rs & gL & gR & a0 & gg & bb & Ea & R1 & R2 & K1 & K2 & K3 & K4 & K5 & K6 & K7 & K8 & K9 & K10 & K11).
      split. { split; [exact Hk|]. split; [exact HK|]. rewrite Ea. split; [apply le_n|]. split; [eexists; exact K8|exact HW]. }
      split. { exists cs, cis, (mo_g pf). split; [exact R1|]. split; [exact R2|]. split; [exact K7|]. eexists. split; exact K8. }
      intros a Ha. rewrite Ea in Ha. injection Ha as <-.
      pose proof (Forall2_len _ _ _ R1) as L1. pose proof (Forall2_len _ _ _ R2) as L2. pose proof (Forall2_len _ _ _ K1) as L3. pose proof (Forall2_len _ _ _ K2) as L4.
      pose proof (Forall2_len _ _ _ K5) as L5. pose proof (Forall2_len _ _ _ K6) as L6.
      assert (Lp : length packeds = length (mo_rounds pf)). { clear - HR. induction HR; cbn [mo_rounds length] in *; [reflexivity|f_equal; assumption]. }
      exists cs, cis, Ls, Rs, ls, rs, (cl_point _ _ _ _ _ CL (smul a0 gg)), bb. split; [exact R1|]. split; [exact R2|]. split; [exact K1|]. split; [exact K2|]. split; [exact K3|]. split; [exact K4|].
      split.
      { apply (combination_iff CL _ _ (msum v gs :: gL ++ gR)).
        - constructor; [exact HP|]. apply Forall2_app; assumption.
        - cbn [length]. unfold squares. rewrite !app_length, !map_length. lia.
        - f_equal. fold (msum (fone :: squares cs ++ squares cis) (msum v gs :: gL ++ gR)).
          rewrite (msum_cons CL), (msum_app CL) by (unfold squares; rewrite map_length; lia). rewrite (smul_1 CL). symmetry. exact K10. }
      split. { apply (combination_iff CL [a0] [mo_g pf] [gg]); [constructor; [exact K8|constructor]|reflexivity|]. f_equal. unfold ExtractP.smul. cbn [map MultiexpP.zsum]. abel. }
      split. { apply (fold_iff SL packeds cs cis _ bb R1 R2). replace (length cs) with k by lia. exact K9. }
      cbn [claim po_opening]. rewrite <- K11. f_equal. replace (2 ^ k) with (length v) by exact Hv. symmetry. apply dot_powers.
  Qed.
End Honest.
