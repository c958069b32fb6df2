(** Commitments are linear and binding. *)
From Coq Require Import ZArith List Bool Arith Lia Ring Field.
From Verif Require Import Lib.AbGroup Lib.Abel Model.FieldTrait Model.Circuits Model.Curve Model.Threads Model.Util Model.Params Model.Opening
  Spec.FieldLaws Spec.CurveSpec Spec.CurveLaws Spec.UtilSpec Spec.SystemSpec Spec.ProofSpec Spec.VerifySpec Spec.ExtractSpec Spec.BindingSpec
  Proofs.FieldGen Proofs.SumP Proofs.CurveTop Proofs.MultiexpP Proofs.FoldP Proofs.ChallengeP Proofs.UtilTop Proofs.OpeningP Proofs.OpeningTop Proofs.ParamsP Proofs.VerifyP Proofs.ExtractP.
Import ListNotations.
Open Scope nat_scope. Open Scope list_scope.

Lemma placed_length {F : Field} n e (v : list F) : length v <= n -> length (placed n e v) = n.
Proof. intro H. unfold placed. destruct e; rewrite app_length, repeat_length; lia. Qed.
Section Mixture.
  Context {F : Field} {p v0} (OL : OpsLaws F p v0).
  Add Ring Rl : (fring OL).
Lemma mixture_placed n e (s t : F) v w : length v = length w -> placed n e (mixture s t v w) = mixture s t (placed n e v) (placed n e w).
Proof.
  intro H.
  assert (Z0 : forall k, mixture s t (repeat fzero k) (repeat fzero k) = repeat fzero k).
  { unfold mixture. induction k as [|k IH]; [reflexivity|]. cbn [repeat combine map]. rewrite IH. f_equal. ring. }
  assert (LM : forall a b : list F, length a = length b -> length (mixture s t a b) = length a).
  { intros a b E. unfold mixture. rewrite map_length, combine_length. lia. }
  assert (AP : forall a b a' b' : list F, length a = length b -> mixture s t (a ++ a') (b ++ b') = mixture s t a b ++ mixture s t a' b').
  { unfold mixture. induction a as [|x a IH]; intros [|y b] a' b' E; try discriminate E; [reflexivity|]. cbn [app combine map]. f_equal. apply IH. injection E as E. exact E. }
  unfold placed. rewrite (LM v w H). rewrite <- H. destruct e; rewrite AP by (rewrite ?repeat_length; congruence); rewrite Z0; reflexivity.
Qed.
End Mixture.
Section Commit.
  Context {C : Curve} {q vb r vs} (CL : CurveLaws C q vb r vs).
  Notation G := (cl_group _ _ _ _ _ CL).
  Notation rep := (rep CL).
  Notation F := (Scalar C).
  Let SL := cl_scalar _ _ _ _ _ CL.
  Let SO := fl_ops _ _ _ SL.
  Add Field Fb : (ffield SO).

  Lemma msum_zeros k : forall gs, msum CL (repeat fzero k) gs = g0.
  Proof. induction k as [|k IH]; intros [|g gs]; try reflexivity. cbn [repeat]. rewrite msum_cons, smul_0, IH. abel. Qed.
  Lemma msum_placed e v gs : length v <= length gs ->
    msum CL (placed (length gs) e v) gs = zsum CL (map vs v) (if e then skipn (length gs - length v) gs else firstn (length v) gs).
  Proof.
    intro H. unfold placed. destruct e.
    - rewrite <- (firstn_skipn (length gs - length v) gs) at 2. rewrite msum_app by (rewrite repeat_length, firstn_length; lia). rewrite msum_zeros. fold (msum CL v (skipn (length gs - length v) gs)). abel.
    - rewrite <- (firstn_skipn (length v) gs) at 2. rewrite msum_app by (rewrite firstn_length; lia). rewrite msum_zeros. fold (msum CL v (firstn (length v) gs)). abel.
  Qed.
  Lemma msum_mixture s t v : forall w gs, length v = length w -> msum CL (mixture s t v w) gs = gp (smul CL s (msum CL v gs)) (smul CL t (msum CL w gs)).
  Proof.
    induction v as [|x v IH]; intros [|y w] gs H; try discriminate H.
    - unfold mixture. cbn [combine map]. replace (msum CL [] gs) with (g0 : G) by (destruct gs; reflexivity). rewrite !smul_g0. abel.
    - destruct gs as [|g gs]; [change (msum CL (mixture s t (x :: v) (y :: w)) []) with (g0 : G); change (msum CL (x :: v) []) with (g0 : G); change (msum CL (y :: w) []) with (g0 : G); rewrite !smul_g0; abel|].
      change (mixture s t (x :: v) (y :: w)) with (fadd (fmul s x) (fmul t y) :: mixture s t v w). rewrite !msum_cons, IH, !smul_gp, smul_add, !smul_mul by (injection H as H; exact H). abel.
  Qed.
  Lemma difference_mixture (v w : list F) : difference v w = mixture fone (fneg fone) v w.
  Proof. unfold difference, mixture. apply map_ext. intros [x y]. ring. Qed.
  Lemma difference_zero v : forall w : list F, length v = length w -> (Forall (eq fzero) (difference v w) <-> v = w).
  Proof.
    induction v as [|x v IH]; intros [|y w] H; try discriminate H; [split; [reflexivity|constructor]|].
    change (difference (x :: v) (y :: w)) with (fsub x y :: difference v w). split.
    - intro D. inversion D as [|? ? D1 D2]; subst. f_equal; [|apply IH; [injection H as H; exact H|exact D2]].
      assert (E : x = fadd (fsub x y) y) by ring. rewrite E, <- D1. ring.
    - intro E. injection E as -> ->. constructor; [ring|apply IH; reflexivity].
  Qed.
  Lemma gens_ex (l : list C) : Forall valid l -> exists gs, Forall2 rep l gs.
  Proof. induction 1 as [|g l H _ (gs & IH)]; [exists []; constructor|]. destruct (valid_ex CL g H) as (h & Hh). exists (h :: gs). constructor; assumption. Qed.
  Lemma commit_placed M (P : Params C) gs v e D : machine_ok M -> Forall2 rep (p_generators P) gs -> (Z.of_nat (length (p_generators P)) < 2 ^ 32)%Z ->
    commit M P v e = Some D -> length v <= length gs /\ rep D (msum CL (placed (length gs) e v) gs).
  Proof.
    intros HM HG HZ HD. pose proof (Forall2_len _ _ _ HG) as EL.
    assert (HL : length v <= length (p_generators P)).
    { destruct (le_lt_dec (length v) (length (p_generators P))) as [H|H]; [exact H|]. apply (proj2 (commit_panics M P v e)) in H. congruence. }
    split; [lia|]. destruct (commit_rep CL M P gs v e HM HG HZ HL) as (D' & E & R). rewrite E in HD. injection HD as <-. rewrite msum_placed by lia. exact R.
  Qed.
  Theorem binding M M' (P : Params C) v e v' e' D D' : machine_ok M -> machine_ok M' -> Forall valid (p_generators P) -> (Z.of_nat (length (p_generators P)) < 2 ^ 32)%Z ->
    commit M P v e = Some D -> commit M' P v' e' = Some D' ->
    (same_point D D' <-> placed (length (p_generators P)) e v = placed (length (p_generators P)) e' v' \/
       relation (p_generators P) (difference (placed (length (p_generators P)) e v) (placed (length (p_generators P)) e' v'))).
  Proof.
    intros HM HM' HV HZ HD HD'. destruct (gens_ex _ HV) as (gs & HG). pose proof (Forall2_len _ _ _ HG) as EL.
    destruct (commit_placed M P gs v e D HM HG HZ HD) as (L & R). destruct (commit_placed M' P gs v' e' D' HM' HG HZ HD') as (L' & R'). rewrite EL.
    assert (N := placed_length (length gs) e v L). assert (N' := placed_length (length gs) e' v' L').
    set (a := placed (length gs) e v) in *. set (b := placed (length gs) e' v') in *.
    assert (NE : length a = length b) by congruence.
    assert (LD : length (difference a b) = length (p_generators P)) by (unfold difference; rewrite map_length, combine_length; lia).
    assert (MD : msum CL (difference a b) gs = gp (msum CL a gs) (gn (msum CL b gs))).
    { rewrite difference_mixture, msum_mixture by exact NE. rewrite smul_1.
      assert (S : smul CL (fneg fone) (msum CL b gs) = gn (msum CL b gs)).
      { assert (X : gp (smul CL (fneg fone) (msum CL b gs)) (msum CL b gs) = g0).
        { rewrite <- (smul_1 CL (msum CL b gs)) at 2. rewrite <- smul_add. replace (fadd (fneg fone) fone) with (fzero : F) by ring. apply smul_0. }
        assert (Y : smul CL (fneg fone) (msum CL b gs) = gp (gp (smul CL (fneg fone) (msum CL b gs)) (msum CL b gs)) (gn (msum CL b gs))) by abel. rewrite Y, X. abel. }
      rewrite S. reflexivity. }
    split.
    - intros (A & RA & RA'). assert (E : msum CL a gs = msum CL b gs).
      { destruct (rep_ex CL _ _ RA) as (g & -> & Hg). pose proof (rep_fun CL _ _ _ R Hg). pose proof (rep_fun CL _ _ _ R' RA'). congruence. }
      destruct (is_zero_vec (difference a b)) eqn:Z0.
      + left. apply (is_zero_iff CL) in Z0. apply difference_zero; assumption.
      + right. split; [exact LD|]. split; [intro X; apply (is_zero_iff CL) in X; congruence|].
        apply (combination_iff CL _ _ gs _ HG LD). fold (msum CL (difference a b) gs). rewrite MD, E. replace (gp (msum CL b gs) (gn (msum CL b gs))) with (g0 : G) by abel. symmetry. apply (cl_infinity _ _ _ _ _ CL).
    - intros [E|(_ & _ & HC)].
      + apply (same_rep CL D D' _ _ R R'). rewrite E. reflexivity.
      + apply (combination_iff CL _ _ gs _ HG LD) in HC. fold (msum CL (difference a b) gs) in HC.
        rewrite <- (cl_infinity _ _ _ _ _ CL) in HC. apply (cl_inj _ _ _ _ _ CL) in HC. rewrite MD in HC.
        apply (same_rep CL D D' _ _ R R'). 
        assert (Y : msum CL a gs = gp (gp (msum CL a gs) (gn (msum CL b gs))) (msum CL b gs)) by abel. rewrite Y, <- HC. abel.
  Qed.
  Theorem linear M M' M2 (P : Params C) v v' e D D' s t : machine_ok M -> machine_ok M' -> machine_ok M2 -> Forall valid (p_generators P) -> (Z.of_nat (length (p_generators P)) < 2 ^ 32)%Z ->
    length v = length v' -> commit M P v e = Some D -> commit M' P v' e = Some D' ->
    exists E, commit M2 P (mixture s t v v') e = Some E /\ same_point E (c_add (c_mul D s) (c_mul D' t)).
  Proof.
    intros HM HM' HM2 HV HZ HL HD HD'. destruct (gens_ex _ HV) as (gs & HG). pose proof (Forall2_len _ _ _ HG) as EL.
    destruct (commit_placed M P gs v e D HM HG HZ HD) as (L & R). destruct (commit_placed M' P gs v' e D' HM' HG HZ HD') as (L' & R').
    assert (LM : length (mixture s t v v') <= length (p_generators P)) by (unfold mixture; rewrite map_length, combine_length; lia).
    destruct (commit_rep CL M2 P gs (mixture s t v v') e HM2 HG HZ LM) as (E & HE & RE). exists E. split; [exact HE|].
    refine (same_rep CL _ _ _ _ RE (rep_add CL _ _ _ _ (rep_mul CL _ s _ R) (rep_mul CL _ t _ R')) _).
    rewrite <- msum_placed by lia. rewrite (mixture_placed SO) by exact HL. rewrite msum_mixture by (rewrite !placed_length by lia; reflexivity). reflexivity.
  Qed.

  (** *** Claims *)
  Lemma full_claim (generators : list C) gs claim v : Forall2 rep generators gs -> length v = length generators -> true_claim generators claim v ->
    rep (po_commitment claim) (msum CL v gs) /\ po_opening claim = eval_at v (po_point claim).
  Proof.
    intros HG HL [H1 H2]. pose proof (Forall2_len _ _ _ HG) as EL. split.
    - apply (proj1 (commitment_rep CL _ gs _ _ _ HG)) in H1 as [_ H1]. unfold position in H1. fold (msum CL v gs).
      destruct (po_right_edge claim); [replace (length gs - length v) with 0 in H1 by lia; exact H1|replace (length v) with (length gs) in H1 by lia; rewrite firstn_all in H1; exact H1].
    - rewrite H2, (value_eq CL). unfold offset. rewrite HL, Nat.sub_diag. destruct (po_right_edge claim); cbn [fpow]; ring.
  Qed.
  Lemma different_values (generators : list C) claim claim' v v' : Forall valid generators -> length v = length generators -> length v' = length generators ->
    true_claim generators claim v -> true_claim generators claim' v' -> same_point (po_commitment claim) (po_commitment claim') ->
    po_point claim = po_point claim' -> po_opening claim <> po_opening claim' -> relation generators (difference v v').
  Proof.
    intros HV L L' T T' (A & RA & RA') EP NO. destruct (gens_ex _ HV) as (gs & HG). pose proof (Forall2_len _ _ _ HG) as EL.
    destruct (full_claim _ _ _ _ HG L T) as [R E]. destruct (full_claim _ _ _ _ HG L' T') as [R' E'].
    assert (EM : msum CL v gs = msum CL v' gs).
    { destruct (rep_ex CL _ _ RA) as (g & -> & Hg). pose proof (rep_fun CL _ _ _ R Hg). pose proof (rep_fun CL _ _ _ R' RA'). congruence. }
    assert (LD : length (difference v v') = length generators) by (unfold difference; rewrite map_length, combine_length; lia).
    split; [exact LD|]. split; [intro Z0; apply (proj1 (difference_zero v v' ltac:(congruence))) in Z0; congruence|].
    apply (combination_iff CL _ _ gs _ HG LD). fold (msum CL (difference v v') gs). rewrite difference_mixture, msum_mixture by congruence. rewrite EM, <- smul_add.
    replace (fadd fone (fneg fone)) with (fzero : F) by ring. rewrite smul_0. symmetry. apply (cl_infinity _ _ _ _ _ CL).
  Qed.
  (** Two polynomials with one commitment, for generators G and 2 G *)
  Lemma doubled_same claim claim' (g : C) : valid g -> true_claim [g; c_double g] claim [fadd fone fone; fzero] -> true_claim [g; c_double g] claim' [fzero; fone] ->
    same_point (po_commitment claim) (po_commitment claim').
  Proof.
    intros HV T T'. destruct (valid_ex CL g HV) as (h & Hh).
    assert (HG : Forall2 rep [g; c_double g] [h; gp h h]) by (repeat constructor; [exact Hh|exact (rep_double CL _ _ Hh)]).
    destruct (full_claim _ _ _ [fadd fone fone; fzero] HG eq_refl T) as [R _]. destruct (full_claim _ _ _ [fzero; fone] HG eq_refl T') as [R' _].
    apply (same_rep CL _ _ _ _ R R'). rewrite !msum_cons, smul_add, !smul_0, !smul_1. reflexivity || abel.
  Qed.
  Lemma doubled_differ claim claim' (g : C) : valid g -> true_claim [g; c_double g] claim [fadd fone fone; fzero] -> true_claim [g; c_double g] claim' [fzero; fone] ->
    po_point claim = fone -> po_point claim' = fone -> po_opening claim <> po_opening claim'.
  Proof.
    intros HV T T' E E'. destruct (valid_ex CL g HV) as (h & Hh).
    assert (HG : Forall2 rep [g; c_double g] [h; gp h h]) by (repeat constructor; [exact Hh|exact (rep_double CL _ _ Hh)]).
    destruct (full_claim _ _ _ [fadd fone fone; fzero] HG eq_refl T) as [_ ->]. destruct (full_claim _ _ _ [fzero; fone] HG eq_refl T') as [_ ->].
    rewrite E, E'.
    replace (eval_at [fadd fone fone; fzero] fone) with (fadd fone fone : F) by (unfold eval_at, coeff; cbn; ring).
    replace (eval_at [fzero; fone] fone) with (fone : F) by (unfold eval_at, coeff; cbn; ring).
    intro H. apply (fone_neq_zero SO). transitivity (fsub (fadd fone fone) (fone : F)); [ring|]. rewrite H. ring.
  Qed.
  Lemma doubled_commit M (P : Params C) (g : C) : machine_ok M -> valid g -> p_generators P = [g; c_double g] ->
    exists D D', commit M P [fadd fone fone] false = Some D /\ commit M P [fone] true = Some D' /\ same_point D D'.
  Proof.
    intros HM HV EG. destruct (valid_ex CL g HV) as (h & Hh).
    assert (HG : Forall2 rep (p_generators P) [h; gp h h]) by (rewrite EG; repeat constructor; [exact Hh|exact (rep_double CL _ _ Hh)]).
    assert (HZ : (Z.of_nat (length (p_generators P)) < 2 ^ 32)%Z) by (rewrite EG; reflexivity).
    destruct (commit_rep CL M P _ [fadd fone fone] false HM HG HZ) as (D & HD & RD); [rewrite EG; cbn; lia|].
    destruct (commit_rep CL M P _ [fone] true HM HG HZ) as (D' & HD' & RD'); [rewrite EG; cbn; lia|].
    exists D, D'. split; [exact HD|]. split; [exact HD'|]. refine (same_rep CL _ _ _ _ RD RD' _).
    cbn [length Nat.sub skipn firstn]. fold (msum CL [fadd fone fone] [h]). fold (msum CL [fone] [gp h h]). rewrite !msum_cons, smul_add, !smul_1. reflexivity.
  Qed.
End Commit.
