(** Special soundness of the inner product argument. *)
From Coq Require Import ZArith List Bool Arith Lia Ring Field.
From Verif Require Import Lib.AbGroup Lib.Abel Model.FieldTrait Model.Circuits Model.Curve Model.Util Model.Params Model.Opening
  Spec.FieldLaws Spec.CurveSpec Spec.CurveLaws Spec.UtilSpec Spec.SystemSpec Spec.ProofSpec Spec.VerifySpec Spec.RecursiveCircuitSpec Spec.ExtractSpec
  Proofs.FieldGen Proofs.SumP Proofs.CurveTop Proofs.MultiexpP Proofs.FoldP Proofs.ChallengeP Proofs.UtilTop Proofs.IdentityP Proofs.OpeningP Proofs.OpeningTop Proofs.ProverLemmas Proofs.DeferredTop Proofs.VerifyP.
Import ListNotations.
Open Scope nat_scope.
Open Scope list_scope.

Section Extract.
  Context {C : Curve} {q vb r vs} (CL : CurveLaws C q vb r vs).
  Notation G := (cl_group _ _ _ _ _ CL).
  Notation rep := (rep CL).
  Notation F := (Scalar C).
  Let SL := cl_scalar _ _ _ _ _ CL.
  Let SO := fl_ops _ _ _ SL.
  Add Field Fs : (ffield SO).
  Infix "[+]" := fadd (at level 50, left associativity).
  Infix "[-]" := fsub (at level 50, left associativity).
  Infix "[*]" := fmul (at level 40, left associativity).
  Notation "a [/] b" := (fdiv (p := r) a b) (at level 40, left associativity).

  (** *** Multiples by scalars *)
  Definition smul (s : F) (g : G) : G := zmul (vs s) g.
  Lemma smul_add s t g : smul (s [+] t) g = gp (smul s g) (smul t g).
  Proof. unfold smul. rewrite (ol_add _ _ _ SO), (zmul_vs_mod CL). apply zmul_add. Qed.
  Lemma smul_mul s t g : smul (s [*] t) g = smul s (smul t g).
  Proof. unfold smul. rewrite (ol_mul _ _ _ SO), (zmul_vs_mod CL). abel. Qed.
  Lemma smul_gp s g h : smul s (gp g h) = gp (smul s g) (smul s h).
  Proof. apply zmul_gp. Qed.
  Lemma smul_0 g : smul fzero g = g0. Proof. unfold smul. rewrite (ol_zero _ _ _ SO). reflexivity. Qed.
  Lemma smul_1 g : smul fone g = g. Proof. unfold smul. rewrite (ol_one _ _ _ SO). apply zmul_1. Qed.
  Lemma smul_g0 s : smul s g0 = g0. Proof. apply zmul_g0. Qed.

  Definition vscale (s : F) (v : list F) : list F := map (fmul s) v.
  Definition vadd (v w : list F) : list F := map (fun '(x, y) => x [+] y) (combine v w).
  Definition msum (v : list F) (gs : list G) : G := zsum CL (map vs v) gs.
  Lemma vscale_length s v : length (vscale s v) = length v. Proof. apply map_length. Qed.
  Lemma vadd_length v w : length v = length w -> length (vadd v w) = length v.
  Proof. intro H. unfold vadd. rewrite map_length, combine_length. lia. Qed.
  Lemma vscale_coeff s v i : coeff (vscale s v) i = s [*] coeff v i.
  Proof.
    unfold coeff, vscale. revert i. induction v as [|x v IH]; intros [|i]; cbn [map nth]; try ring; try reflexivity. apply IH.
  Qed.
  Lemma vadd_coeff v : forall w i, length v = length w -> coeff (vadd v w) i = coeff v i [+] coeff w i.
  Proof.
    unfold coeff, vadd. induction v as [|x v IH]; intros [|y w] i H; cbn [length] in H; try discriminate H.
    - destruct i; cbn; ring.
    - destruct i as [|i]; cbn [combine map nth]; [reflexivity|]. apply IH. congruence.
  Qed.
  Lemma coeff_ext (v w : list F) : length v = length w -> (forall i, i < length v -> coeff v i = coeff w i) -> v = w.
  Proof. intros H E. apply (nth_ext v w fzero fzero H). intros i Hi. apply E, Hi. Qed.
  Lemma msum_cons x v g gs : msum (x :: v) (g :: gs) = gp (smul x g) (msum v gs). Proof. reflexivity. Qed.
  Lemma msum_scale s v : forall gs, msum (vscale s v) gs = smul s (msum v gs).
  Proof.
    induction v as [|x v IH]; intros [|g gs]; try (symmetry; apply smul_g0).
    change (vscale s (x :: v)) with (s [*] x :: vscale s v). rewrite !msum_cons, IH, smul_gp, smul_mul. reflexivity.
  Qed.
  Lemma msum_add v : forall w gs, length v = length w -> msum (vadd v w) gs = gp (msum v gs) (msum w gs).
  Proof.
    induction v as [|x v IH]; intros [|y w] gs H; cbn [length] in H; try discriminate H; [symmetry; apply gp_0_l|].
    destruct gs as [|g gs]; [symmetry; apply gp_0_l|].
    change (vadd (x :: v) (y :: w)) with (x [+] y :: vadd v w). rewrite !msum_cons, IH, smul_add by congruence. abel.
  Qed.
  Lemma msum_app v w gs hs : length v = length gs -> msum (v ++ w) (gs ++ hs) = gp (msum v gs) (msum w hs).
  Proof. intro H. unfold msum. rewrite map_app. apply zsum_app. rewrite map_length. exact H. Qed.
  Lemma msum_fold (c ci : F) a : forall lo hi : list G, length lo = length a -> length hi = length a ->
    msum a (map (fun '(l, h) => gfold CL (c, ci) l h) (combine lo hi)) = gp (smul ci (msum a lo)) (smul c (msum a hi)).
  Proof.
    induction a as [|x a IH]; intros [|g lo] [|h hi] H1 H2; cbn [length] in *; try discriminate; [cbn; rewrite !smul_g0; symmetry; apply gp_0_l|].
    cbn [combine map]. rewrite !msum_cons, IH by congruence. unfold gfold. cbn [fst snd]. fold (smul ci g). fold (smul c h).
    rewrite !smul_gp, <- !smul_mul. replace (x [*] ci) with (ci [*] x) by ring. replace (x [*] c) with (c [*] x) by ring. abel.
  Qed.

  (** *** Interpolation *)
  Definition wP (u v w : F) : F := fneg (u [*] (v [+] w)) [/] ((u [-] v) [*] (u [-] w)).
  Definition wL (u v w : F) : F := u [/] ((u [-] v) [*] (u [-] w)).
  Definition wR (u v w : F) : F := (u [*] v [*] w) [/] ((u [-] v) [*] (u [-] w)).
  Definition mix (wt : F -> F -> F -> F) (u1 u2 u3 : F) (e1 e2 e3 : list F) : list F :=
    vadd (vscale (wt u1 u2 u3) e1) (vadd (vscale (wt u2 u3 u1) e2) (vscale (wt u3 u1 u2) e3)).
  Definition expand (c ci : F) (a : list F) : list F := vscale ci a ++ vscale c a.
  Definition is_zero_vec (z : list F) : bool := forallb (fun x => feqb x fzero) z.
  Definition root_of (pk : F) : F := match f_sqrt (get_challenge_scalar (F2 := F) pk) with Some c => c | None => fone end.
  Definition step (c1 c2 c3 c4 : F) (a1 a2 a3 a4 : list F) : extracted C :=
    let i x := fone [/] x in
    let u1 := c1 [*] c1 in let u2 := c2 [*] c2 in let u3 := c3 [*] c3 in let u4 := c4 [*] c4 in
    let e1 := expand c1 (i c1) a1 in let e2 := expand c2 (i c2) a2 in let e3 := expand c3 (i c3) a3 in let e4 := expand c4 (i c4) a4 in
    let p := mix wP u1 u2 u3 e1 e2 e3 in let l := mix wL u1 u2 u3 e1 e2 e3 in let rr := mix wR u1 u2 u3 e1 e2 e3 in
    let z := vadd (vadd p (vadd (vscale u4 l) (vscale (i u4) rr))) (vscale (fneg fone) e4) in
    if is_zero_vec z then Coefficients p else Relation z.
  Fixpoint extract (T : answers C) : extracted C :=
    match T with
    | Answer a => Coefficients [a]
    | Answers pk next =>
        let up b z := Relation (expand (root_of (pk b)) (fone [/] root_of (pk b)) z) in
        match extract (next B1), extract (next B2), extract (next B3), extract (next B4) with
        | Coefficients a1, Coefficients a2, Coefficients a3, Coefficients a4 =>
            step (root_of (pk B1)) (root_of (pk B2)) (root_of (pk B3)) (root_of (pk B4)) a1 a2 a3 a4
        | Relation z, _, _, _ => up B1 z
        | _, Relation z, _, _ => up B2 z
        | _, _, Relation z, _ => up B3 z
        | _, _, _, Relation z => up B4 z
        end
    end.

  Lemma mix_length wt u1 u2 u3 e1 e2 e3 n : length e1 = n -> length e2 = n -> length e3 = n -> length (mix wt u1 u2 u3 e1 e2 e3) = n.
  Proof. intros H1 H2 H3. unfold mix. rewrite !vadd_length; rewrite ?vscale_length; rewrite ?vadd_length; rewrite ?vscale_length; congruence. Qed.
  Lemma mix_coeff wt u1 u2 u3 e1 e2 e3 n i : length e1 = n -> length e2 = n -> length e3 = n ->
    coeff (mix wt u1 u2 u3 e1 e2 e3) i = wt u1 u2 u3 [*] coeff e1 i [+] (wt u2 u3 u1 [*] coeff e2 i [+] wt u3 u1 u2 [*] coeff e3 i).
  Proof.
    intros H1 H2 H3. unfold mix. rewrite !vadd_coeff; rewrite ?vscale_length; rewrite ?vadd_length; rewrite ?vscale_length; try congruence.
    rewrite !vscale_coeff. reflexivity.
  Qed.
  Lemma mix_msum wt u1 u2 u3 e1 e2 e3 n gs : length e1 = n -> length e2 = n -> length e3 = n ->
    msum (mix wt u1 u2 u3 e1 e2 e3) gs = gp (smul (wt u1 u2 u3) (msum e1 gs)) (gp (smul (wt u2 u3 u1) (msum e2 gs)) (smul (wt u3 u1 u2) (msum e3 gs))).
  Proof.
    intros H1 H2 H3. unfold mix. rewrite !msum_add; rewrite ?vscale_length; rewrite ?vadd_length; rewrite ?vscale_length; try congruence.
    rewrite !msum_scale. reflexivity.
  Qed.
  Lemma expand_length c ci a : length (expand c ci a) = 2 * length a.
  Proof. unfold expand. rewrite app_length, !vscale_length. lia. Qed.
  Lemma sub_nz (x y : F) : x <> y -> x [-] y <> fzero.
  Proof. intros H E. apply H. apply (fsub_zero SO). exact E. Qed.

  (** one combination of the three equations *)
  Lemma combine3 (x1 x2 x3 u1 u2 u3 i1 i2 i3 : F) (P L R : G) :
    gp (smul x1 (gp (gp P (smul u1 L)) (smul i1 R))) (gp (smul x2 (gp (gp P (smul u2 L)) (smul i2 R))) (smul x3 (gp (gp P (smul u3 L)) (smul i3 R))))
    = gp (gp (smul (x1 [+] x2 [+] x3) P) (smul (x1 [*] u1 [+] x2 [*] u2 [+] x3 [*] u3) L)) (smul (x1 [*] i1 [+] x2 [*] i2 [+] x3 [*] i3) R).
  Proof. rewrite !smul_gp, !smul_add, !smul_mul. abel. Qed.

  Section Round.
    Variables (u1 u2 u3 : F) (N1 : u1 <> fzero) (N2 : u2 <> fzero) (N3 : u3 <> fzero) (N12 : u1 <> u2) (N13 : u1 <> u3) (N23 : u2 <> u3).
    Ltac side := repeat split; try assumption; apply sub_nz; auto.
    Lemma solve_P (P L R : G) : 
      let Q u := gp (gp P (smul u L)) (smul (fone [/] u) R) in
      gp (smul (wP u1 u2 u3) (Q u1)) (gp (smul (wP u2 u3 u1) (Q u2)) (smul (wP u3 u1 u2) (Q u3))) = P.
    Proof.
      cbv beta zeta. rewrite combine3.
      replace (wP u1 u2 u3 [+] wP u2 u3 u1 [+] wP u3 u1 u2) with (fone : F) by (unfold wP; field; side).
      replace (wP u1 u2 u3 [*] u1 [+] wP u2 u3 u1 [*] u2 [+] wP u3 u1 u2 [*] u3) with (fzero : F) by (unfold wP; field; side).
      match goal with |- context [smul ?x R] => replace x with (fzero : F) by (unfold wP; field; side) end.
      rewrite smul_1, !smul_0. abel.
    Qed.
    Lemma solve_L (P L R : G) : 
      let Q u := gp (gp P (smul u L)) (smul (fone [/] u) R) in
      gp (smul (wL u1 u2 u3) (Q u1)) (gp (smul (wL u2 u3 u1) (Q u2)) (smul (wL u3 u1 u2) (Q u3))) = L.
    Proof.
      cbv beta zeta. rewrite combine3.
      match goal with |- context [smul ?x P] => replace x with (fzero : F) by (unfold wL; field; side) end.
      match goal with |- context [smul ?x L] => replace x with (fone : F) by (unfold wL; field; side) end.
      match goal with |- context [smul ?x R] => replace x with (fzero : F) by (unfold wL; field; side) end.
      rewrite smul_1, !smul_0. abel.
    Qed.
    Lemma solve_R (P L R : G) : 
      let Q u := gp (gp P (smul u L)) (smul (fone [/] u) R) in
      gp (smul (wR u1 u2 u3) (Q u1)) (gp (smul (wR u2 u3 u1) (Q u2)) (smul (wR u3 u1 u2) (Q u3))) = R.
    Proof.
      cbv beta zeta. rewrite combine3.
      match goal with |- context [smul ?x P] => replace x with (fzero : F) by (unfold wR; field; side) end.
      match goal with |- context [smul ?x L] => replace x with (fzero : F) by (unfold wR; field; side) end.
      match goal with |- context [smul ?x R] => replace x with (fone : F) by (unfold wR; field; side) end.
      rewrite smul_1, !smul_0. abel.
    Qed.
    Variables e1 e2 e3 : F.
    Let mx (wt : F -> F -> F -> F) := wt u1 u2 u3 [*] e1 [+] (wt u2 u3 u1 [*] e2 [+] wt u3 u1 u2 [*] e3).
    Lemma interp1 : mx wP [+] (u1 [*] mx wL [+] (fone [/] u1) [*] mx wR) = e1.
    Proof. unfold mx, wP, wL, wR. field; side. Qed.
    Lemma interp2 : mx wP [+] (u2 [*] mx wL [+] (fone [/] u2) [*] mx wR) = e2.
    Proof. unfold mx, wP, wL, wR. field; side. Qed.
    Lemma interp3 : mx wP [+] (u3 [*] mx wL [+] (fone [/] u3) [*] mx wR) = e3.
    Proof. unfold mx, wP, wL, wR. field; side. Qed.
  End Round.

  Lemma fold_eq_scalar (c ci : F) a : forall plo phi, length plo = length a -> length phi = length a ->
    (forall i, i < length a -> coeff a i = c [*] coeff plo i [+] ci [*] coeff phi i) ->
    a = map (fun '(l, h) => fold_scalar (ci, c) l h) (combine plo phi).
  Proof.
    induction a as [|x a IH]; intros [|y plo] [|z phi] H1 H2 E; cbn [length] in *; try discriminate; [reflexivity|]. cbn [combine map]. f_equal.
    - pose proof (E 0 ltac:(lia)) as E0. cbn [coeff nth] in E0. unfold coeff in E0. cbn [nth] in E0. unfold fold_scalar. cbn [fst snd]. rewrite E0. ring.
    - apply IH; try congruence. intros i Hi. exact (E (S i) ltac:(lia)).
  Qed.
  Lemma cubic (us : branch -> F) (k0 k1 k2 k3 : F) : (forall b b', b <> b' -> us b <> us b') ->
    (forall b, k0 [+] us b [*] k1 [+] us b [*] us b [*] k2 [+] us b [*] us b [*] us b [*] k3 = fzero) -> k0 = fzero /\ k1 = fzero /\ k2 = fzero /\ k3 = fzero.
  Proof.
    intros HD HE. assert (H : Forall (eq fzero) [k0; k1; k2; k3]).
    { apply (roots_zero SO [us B1; us B2; us B3; us B4]); [|apply le_n|].
      - repeat (apply NoDup_cons; [cbn [In]; intros HH; repeat (destruct HH as [HH|HH]; [apply HD in HH; [exact HH|discriminate]|]); exact HH|]). apply NoDup_nil.
      - intros y Hy. assert (X : exists b, y = us b) by (cbn [In] in Hy; intuition eauto). destruct X as (b & ->).
        rewrite <- (HE b). unfold eval_at. cbn [length fsum coeff nth fpow]. unfold coeff. cbn [nth]. ring. }
    inversion H as [|? ? H0 H']; subst. inversion H' as [|? ? H1 H'']; subst. inversion H'' as [|? ? H2 H3]; subst. inversion H3; subst. repeat split; congruence.
  Qed.
  Lemma is_zero_iff z : is_zero_vec z = true <-> Forall (eq fzero) z.
  Proof.
    unfold is_zero_vec. rewrite forallb_forall, Forall_forall. split; intros H x Hx; specialize (H x Hx).
    - apply (feqb_eq SO) in H. congruence.
    - apply (feqb_eq SO). congruence.
  Qed.
  Definition meets (gs : list G) (bs : list F) (P : G) (v : F) (e : extracted C) : Prop :=
    match e with
    | Coefficients a => length a = length gs /\ msum a gs = P /\ dot a bs = v
    | Relation z => length z = length gs /\ ~ Forall (eq fzero) z /\ msum z gs = g0
    end.
  Lemma step_ok (c : branch -> F) (a : branch -> list F) l glo ghi blo bhi P L R v lv rv :
    (forall b, c b <> fzero) -> (forall b b', b <> b' -> c b [*] c b <> c b' [*] c b') -> (forall b, length (a b) = l) ->
    length glo = l -> length ghi = l -> length blo = l -> length bhi = l ->
    (forall b, msum (a b) (map (fun '(x, y) => gfold CL (c b, fone [/] c b) x y) (combine glo ghi))
       = gp (gp P (smul (c b [*] c b) L)) (smul (fone [/] (c b [*] c b)) R)) ->
    (forall b, dot (a b) (map (fun '(x, y) => fold_scalar (c b, fone [/] c b) x y) (combine blo bhi))
       = v [+] lv [*] (c b [*] c b) [+] rv [*] (fone [/] (c b [*] c b))) ->
    meets (glo ++ ghi) (blo ++ bhi) P v (step (c B1) (c B2) (c B3) (c B4) (a B1) (a B2) (a B3) (a B4)).
  Proof.
    intros HN HD HA HG1 HG2 HB1 HB2 HP HV. unfold step. cbv zeta.
    set (u := fun b => c b [*] c b) in *. set (E := fun b => expand (c b) (fone [/] c b) (a b)).
    fold (u B1) (u B2) (u B3) (u B4) (E B1) (E B2) (E B3) (E B4).
    assert (NU : forall b, u b <> fzero). { intros b X. apply (fmul_zero SO) in X. destruct X as [X|X]; exact (HN b X). }
    assert (LE : forall b, length (E b) = 2 * l). { intro b. unfold E. rewrite expand_length, HA. reflexivity. }
    assert (ME : forall b, msum (E b) (glo ++ ghi) = gp (gp P (smul (u b) L)) (smul (fone [/] u b) R)).
    { intro b. unfold E, expand. rewrite msum_app by (rewrite vscale_length, HA; congruence). rewrite !msum_scale, <- msum_fold by (rewrite HA; congruence). apply HP. }
    set (p := mix wP (u B1) (u B2) (u B3) (E B1) (E B2) (E B3)). set (ll := mix wL (u B1) (u B2) (u B3) (E B1) (E B2) (E B3)). set (rr := mix wR (u B1) (u B2) (u B3) (E B1) (E B2) (E B3)).
    assert (D12 : u B1 <> u B2) by (apply HD; discriminate). assert (D13 : u B1 <> u B3) by (apply HD; discriminate). assert (D23 : u B2 <> u B3) by (apply HD; discriminate).
    assert (Lp : length p = 2 * l) by (apply mix_length; apply LE). assert (Ll : length ll = 2 * l) by (apply mix_length; apply LE). assert (Lr : length rr = 2 * l) by (apply mix_length; apply LE).
    assert (Mp : msum p (glo ++ ghi) = P).
    { unfold p. rewrite (mix_msum _ _ _ _ _ _ _ (2 * l)) by apply LE. rewrite !ME. exact (solve_P (u B1) (u B2) (u B3) (NU B1) (NU B2) (NU B3) D12 D13 D23 P L R). }
    assert (Ml : msum ll (glo ++ ghi) = L).
    { unfold ll. rewrite (mix_msum _ _ _ _ _ _ _ (2 * l)) by apply LE. rewrite !ME. exact (solve_L (u B1) (u B2) (u B3) (NU B1) (NU B2) (NU B3) D12 D13 D23 P L R). }
    assert (Mr : msum rr (glo ++ ghi) = R).
    { unfold rr. rewrite (mix_msum _ _ _ _ _ _ _ (2 * l)) by apply LE. rewrite !ME. exact (solve_R (u B1) (u B2) (u B3) (NU B1) (NU B2) (NU B3) D12 D13 D23 P L R). }
    set (w := vadd (vscale (u B4) ll) (vscale (fone [/] u B4) rr)). set (s := vadd p w). set (z := vadd s (vscale (fneg fone) (E B4))).
    assert (Lw : length w = 2 * l) by (unfold w; rewrite vadd_length; rewrite !vscale_length; congruence).
    assert (Ls : length s = 2 * l) by (unfold s; rewrite vadd_length; congruence).
    assert (Lz : length z = 2 * l) by (unfold z; rewrite vadd_length; rewrite ?vscale_length, ?LE; congruence).
    assert (LG : length (glo ++ ghi) = 2 * l) by (rewrite app_length; lia).
    destruct (is_zero_vec z) eqn:EZ; unfold meets.
    2:{ split; [congruence|]. split; [intro X; apply is_zero_iff in X; congruence|].
        unfold z. rewrite msum_add by (rewrite vscale_length, LE; exact Ls). unfold s. rewrite msum_add by congruence. unfold w. rewrite msum_add by (rewrite !vscale_length; congruence).
        rewrite !msum_scale, Mp, Ml, Mr, ME. 
        match goal with |- gp ?x (smul (fneg fone) ?y) = _ => replace y with x by abel; transitivity (gp (smul fone x) (smul (fneg fone) x)); [rewrite smul_1; reflexivity|] end.
        rewrite <- smul_add. match goal with |- smul ?x _ = _ => replace x with (fzero : F) by ring end. apply smul_0. }
    split; [congruence|]. split; [exact Mp|].
    apply is_zero_iff in EZ.
    assert (HZ : forall b i, i < 2 * l -> coeff (E b) i = coeff p i [+] (u b [*] coeff ll i [+] (fone [/] u b) [*] coeff rr i)).
    { intros b i Hi. destruct b.
      1-3: unfold p, ll, rr; rewrite !(mix_coeff _ _ _ _ _ _ _ (2 * l)) by apply LE; symmetry.
      - exact (interp1 (u B1) (u B2) (u B3) (NU B1) D12 D13 D23 _ _ _).
      - exact (interp2 (u B1) (u B2) (u B3) (NU B2) D12 D13 D23 _ _ _).
      - exact (interp3 (u B1) (u B2) (u B3) (NU B3) D12 D13 D23 _ _ _).
      - assert (X : coeff z i = fzero). { symmetry. apply (proj1 (Forall_forall _ _) EZ). apply nth_In. lia. }
        unfold z in X. rewrite vadd_coeff in X by (rewrite vscale_length, LE; exact Ls). unfold s in X. rewrite vadd_coeff in X by congruence.
        unfold w in X. rewrite vadd_coeff in X by (rewrite !vscale_length; congruence). rewrite !vscale_coeff in X.
        match type of X with ?x [+] _ = _ => transitivity (x [-] (x [+] fneg fone [*] coeff (E B4) i)); [ring|rewrite X; ring] end. }
    destruct (split_half p l Lp) as (plo & phi & Ep & Hp1 & Hp2).
    assert (HC : forall b i, i < l -> coeff (a b) i = c b [*] coeff plo i [+] (fone [/] c b) [*] coeff phi i).
    { assert (CL1 : forall (x y : list F) i, i < length x -> coeff (x ++ y) i = coeff x i) by (intros; apply app_nth1; assumption).
      assert (CL2 : forall (x y : list F) i, length x = l -> coeff (x ++ y) (l + i) = coeff y i) by (intros x y i0 <-; unfold coeff; rewrite app_nth2 by lia; f_equal; lia).
      assert (HE1 : forall b i, i < l -> coeff (E b) i = (fone [/] c b) [*] coeff (a b) i).
      { intros b i Hi. unfold E, expand. rewrite CL1 by (rewrite vscale_length, HA; exact Hi). apply vscale_coeff. }
      assert (HE2 : forall b i, coeff (E b) (l + i) = c b [*] coeff (a b) i).
      { intros b i. unfold E, expand. rewrite CL2 by (rewrite vscale_length; apply HA). apply vscale_coeff. }
      intros b i Hi.
      destruct (cubic u (fneg (coeff rr (l + i))) (coeff rr i [-] coeff p (l + i)) (coeff p i [-] coeff ll (l + i)) (coeff ll i) HD) as (K0 & K1 & K2 & K3).
      { intro b'. pose proof (HZ b' i ltac:(lia)) as Z1. pose proof (HZ b' (l + i) ltac:(lia)) as Z2. rewrite HE1 in Z1 by exact Hi. rewrite HE2 in Z2.
        assert (X : u b' [*] (u b' [*] ((fone [/] c b') [*] coeff (a b') i)) = u b' [*] (c b' [*] coeff (a b') i)).
        { f_equal. unfold u. field. apply HN. }
        rewrite Z1, Z2 in X. transitivity (u b' [*] (u b' [*] (coeff p i [+] (u b' [*] coeff ll i [+] (fone [/] u b') [*] coeff rr i)))
          [-] u b' [*] (coeff p (l + i) [+] (u b' [*] coeff ll (l + i) [+] (fone [/] u b') [*] coeff rr (l + i)))); [field; apply NU|rewrite X; ring]. }
      pose proof (HZ b i ltac:(lia)) as Z1. rewrite HE1 in Z1 by exact Hi. rewrite K3 in Z1. apply (proj1 (fsub_zero SO _ _)) in K1. rewrite K1 in Z1.
      rewrite Ep in Z1. rewrite CL1 in Z1 by (rewrite Hp1; exact Hi). rewrite CL2 in Z1 by exact Hp1.
      transitivity (c b [*] ((fone [/] c b) [*] coeff (a b) i)); [field; apply HN|]. rewrite Z1. unfold u. field. apply HN. }
    assert (HF : forall b, a b = map (fun '(x, y) => fold_scalar (fone [/] c b, c b) x y) (combine plo phi)).
    { intro b. apply fold_eq_scalar; rewrite HA; try congruence. apply HC. }
    assert (HI : forall b, c b [*] (fone [/] c b) = fone) by (intro b; field; apply HN).
    rewrite Ep, (dot_app SO) by congruence.
    destruct (cubic u (dot phi blo [-] rv) (dot plo blo [+] dot phi bhi [-] v) (dot plo bhi [-] lv) fzero HD) as (_ & K1 & _).
    { intro b. pose proof (HV b) as X. rewrite (HF b), (dot_round CL (c b) (fone [/] c b) (HI b)) in X by congruence. fold (u b) in X.
      replace ((fone [/] c b) [*] (fone [/] c b)) with (fone [/] u b) in X by (unfold u; field; apply HN).
      transitivity (u b [*] (dot plo blo [+] dot phi bhi [+] dot plo bhi [*] u b [+] dot phi blo [*] (fone [/] u b)) [-] u b [*] (v [+] lv [*] u b [+] rv [*] (fone [/] u b))); [field; apply NU|rewrite X; ring]. }
    exact (proj1 (fsub_zero SO _ _) K1).
  Qed.

  (** *** The whole argument *)
  Lemma inverse_unique (c ci : F) : c [*] ci = fone -> c <> fzero /\ ci = fone [/] c.
  Proof.
    intro H. assert (N : c <> fzero). { intros ->. apply (fone_neq_zero SO). rewrite <- H. ring. }
    split; [exact N|]. transitivity ((c [*] ci) [*] (fone [/] c)); [field; exact N|]. rewrite H. field. exact N.
  Qed.
  Lemma expand_msum c ci z glo ghi : length glo = length z -> length ghi = length z ->
    msum (expand c ci z) (glo ++ ghi) = msum z (map (fun '(x, y) => gfold CL (c, ci) x y) (combine glo ghi)).
  Proof. intros H1 H2. unfold expand. rewrite msum_app by (rewrite vscale_length; congruence). rewrite !msum_scale. symmetry. apply msum_fold; assumption. Qed.
  Lemma up_ok c z glo ghi bs P v l : c <> fzero -> length glo = l -> length ghi = l -> length z = l -> ~ Forall (eq fzero) z ->
    msum z (map (fun '(x, y) => gfold CL (c, fone [/] c) x y) (combine glo ghi)) = g0 ->
    meets (glo ++ ghi) bs P v (Relation (expand c (fone [/] c) z)).
  Proof.
    intros HN H1 H2 H3 HZ HM. unfold meets. split; [rewrite expand_length, app_length; lia|]. split.
    - intro X. apply HZ. unfold expand in X. apply Forall_app in X. destruct X as [_ X]. unfold vscale in X. rewrite Forall_map in X.
      eapply Forall_impl; [|exact X]. cbv beta. intros x Hx. symmetry in Hx. apply (fmul_zero SO) in Hx. destruct Hx as [Hx|Hx]; [contradiction|symmetry; exact Hx].
    - rewrite expand_msum by congruence. exact HM.
  Qed.
  Definition eqs (j : nat) (p : prover C) (k : nat) (gs : list G) (bs : list F) (P : G) (v : F) : Prop :=
    forall pf packed, run p pf packed -> length (mo_rounds pf) = k /\
      exists cs cis Ls Rs ls rs gL gR a gg b, rooted packed cs /\ inverses cs cis /\
        Forall2 (fun round L => nth_error (ip_L round) j = Some L) (mo_rounds pf) Ls /\
        Forall2 (fun round R => nth_error (ip_R round) j = Some R) (mo_rounds pf) Rs /\
        Forall2 (fun round l => nth_error (ip_l round) j = Some l) (mo_rounds pf) ls /\
        Forall2 (fun round r => nth_error (ip_r round) j = Some r) (mo_rounds pf) rs /\
        Forall2 rep Ls gL /\ Forall2 rep Rs gR /\ nth_error (mo_a pf) j = Some a /\
        fold_vector (gfold CL) (combine cs cis) gs = [gg] /\ fold_vector fold_scalar (combine cs cis) bs = [b] /\
        gp P (gp (msum (squares cs) gL) (msum (squares cis) gR)) = smul a gg /\
        v [+] (dot (squares cs) ls [+] dot (squares cis) rs) = a [*] b.
  Lemma run_ex (p : prover C) : exists pf packed, run p pf packed.
  Proof.
    induction p as [a g|round pk next IH]; [eexists _, _; constructor|].
    destruct (IH B1) as ([rounds a g] & packed & H). eexists _, _. exact (run_round _ _ _ _ _ _ _ _ H).
  Qed.
  Lemma extract_ok (j : nat) (p : prover C) : four_ways p -> forall k gs bs P v, length gs = 2 ^ k -> length bs = 2 ^ k ->
    eqs j p k gs bs P v -> meets gs bs P v (extract (answers_of j p)).
  Proof.
    induction 1 as [a g|round pk next HD _ IH]; intros k gs bs P v HG HB HE.
    - destruct (HE _ _ (run_end a g)) as (Hk & cs & cis & Ls & Rs & ls & rs & gL & gR & a0 & gg & b & H1 & H2 & H3 & H4 & H5 & H6 & H7 & H8 & H9 & H10 & H11 & H12 & H13).
      cbn [mo_rounds mo_a length] in *. inversion H1; subst. inversion H2; subst. cbn [combine fold_vector fold_left squares map] in *.
      cbn [fold_vector fold_left] in H10, H11. unfold fold_vector in H10, H11. cbn [fold_left] in H10, H11. subst gs bs.
      cbn [answers_of extract meets length]. rewrite (nth_error_nth _ _ _ H9). split; [reflexivity|].
      split.
      + unfold msum in *. cbn [map MultiexpP.zsum] in *. fold (smul a0 gg). rewrite <- H12. abel.
      + unfold dot in *. cbn [length fsum] in *. unfold coeff in *. cbn [nth] in *. transitivity (a0 [*] b); [ring|rewrite <- H13; ring].
    - assert (HK : exists k', k = S k').
      { destruct (run_ex (Sends round pk next)) as (pf & packed & HR). destruct (HE _ _ HR) as (Hk & _). inversion HR; subst. cbn [mo_rounds length]. eexists. reflexivity. }
      destruct HK as (k' & ->). rewrite Nat.pow_succ_r' in HG, HB.
      destruct (split_half gs (2 ^ k')) as (glo & ghi & -> & Lg1 & Lg2); [lia|]. destruct (split_half bs (2 ^ k')) as (blo & bhi & -> & Lb1 & Lb2); [lia|].
      set (c := fun b => root_of (pk b)).
      assert (HM : exists L R lv rv, nth_error (ip_L round) j = Some L /\ nth_error (ip_R round) j = Some R /\ nth_error (ip_l round) j = Some lv /\ nth_error (ip_r round) j = Some rv /\
        exists gl gr, rep L gl /\ rep R gr).
      { destruct (run_ex (Sends round pk next)) as (pf & packed & HR). destruct (HE _ _ HR) as (Hk & cs & cis & Ls & Rs & ls & rs & gL & gR & a0 & gg & b & H1 & H2 & H3 & H4 & H5 & H6 & H7 & H8 & _).
        inversion HR; subst. cbn [mo_rounds] in *.
        inversion H3 as [|? L ? ? HL]; subst. inversion H4 as [|? R ? ? HRr]; subst. inversion H5 as [|? lv ? ? Hl]; subst. inversion H6 as [|? rv ? ? Hr]; subst.
        inversion H7; subst. inversion H8; subst. exists L, R, lv, rv. repeat (split; [assumption|]). eexists _, _. split; eassumption. }
      destruct HM as (L & R & lv & rv & EL & ER & El & Er & gl & gr & RL & RR).
      assert (HC : forall b, c b [*] c b = get_challenge_scalar (pk b) /\ c b <> fzero /\
        eqs j (next b) k' (map (fun '(x, y) => gfold CL (c b, fone [/] c b) x y) (combine glo ghi)) (map (fun '(x, y) => fold_scalar (c b, fone [/] c b) x y) (combine blo bhi))
          (gp (gp P (smul (c b [*] c b) gl)) (smul (fone [/] (c b [*] c b)) gr)) (v [+] lv [*] (c b [*] c b) [+] rv [*] (fone [/] (c b [*] c b)))).
      { intro b.
        assert (HX : forall pf packed, run (next b) pf packed -> exists ci, f_sqrt (get_challenge_scalar (F2 := F) (pk b)) = Some (c b) /\ c b [*] ci = fone /\
            length (mo_rounds pf) = k' /\
            exists cs cis Ls Rs ls rs gL gR a gg bb, rooted packed cs /\ inverses cs cis /\
              Forall2 (fun round L => nth_error (ip_L round) j = Some L) (mo_rounds pf) Ls /\
              Forall2 (fun round R => nth_error (ip_R round) j = Some R) (mo_rounds pf) Rs /\
              Forall2 (fun round l => nth_error (ip_l round) j = Some l) (mo_rounds pf) ls /\
              Forall2 (fun round r => nth_error (ip_r round) j = Some r) (mo_rounds pf) rs /\
              Forall2 rep Ls gL /\ Forall2 rep Rs gR /\ nth_error (mo_a pf) j = Some a /\
              fold_vector (gfold CL) (combine cs cis) (halve (gfold CL (c b, ci)) (glo ++ ghi)) = [gg] /\
              fold_vector fold_scalar (combine cs cis) (halve (fold_scalar (c b, ci)) (blo ++ bhi)) = [bb] /\
              gp P (gp (gp (smul (c b [*] c b) gl) (msum (squares cs) gL)) (gp (smul (ci [*] ci) gr) (msum (squares cis) gR))) = smul a gg /\
              v [+] ((c b [*] c b) [*] lv [+] dot (squares cs) ls [+] ((ci [*] ci) [*] rv [+] dot (squares cis) rs)) = a [*] bb).
        { intros [rounds a g] packed HR. pose proof (run_round round pk next b rounds a g packed HR) as HR'.
          destruct (HE _ _ HR') as (Hk & cs & cis & Ls & Rs & ls & rs & gL & gR & a0 & gg & bb & H1 & H2 & H3 & H4 & H5 & H6 & H7 & H8 & H9 & H10 & H11 & H12 & H13).
          cbn [mo_rounds mo_a length] in *. unfold rooted in H1.
          inversion H1 as [|pk0 c0 packed0 cs0 Hs H1']; subst. inversion H2 as [|? ci0 ? cis0 Hi H2']; subst.
          inversion H3 as [|? L0 ? Ls0 HL0 H3']; subst. inversion H4 as [|? R0 ? Rs0 HR0 H4']; subst. inversion H5 as [|? l0 ? ls0 Hl0 H5']; subst. inversion H6 as [|? r0 ? rs0 Hr0 H6']; subst.
          inversion H7 as [|? gl0 ? gL0 HGL H7']; subst. inversion H8 as [|? gr0 ? gR0 HGR H8']; subst.
          assert (L0 = L) as -> by congruence. assert (R0 = R) as -> by congruence. assert (l0 = lv) as -> by congruence. assert (r0 = rv) as -> by congruence.
          assert (gl0 = gl) as -> by exact (rep_fun CL _ _ _ HGL RL). assert (gr0 = gr) as -> by exact (rep_fun CL _ _ _ HGR RR).
          assert (c b = c0) as ->. { unfold c, root_of. rewrite Hs. reflexivity. }
          exists ci0. split; [exact Hs|]. split; [exact Hi|]. split; [congruence|].
          exists cs0, cis0, Ls0, Rs0, ls0, rs0, gL0, gR0, a0, gg, bb. split; [exact H1'|]. split; [exact H2'|]. split; [exact H3'|]. split; [exact H4'|]. split; [exact H5'|]. split; [exact H6'|].
          split; [exact H7'|]. split; [exact H8'|]. split; [exact H9|]. split; [exact H10|]. split; [exact H11|]. split; [exact H12|].
          rewrite <- H13. unfold squares. cbn [map]. rewrite !(IdentityP.dot_cons SO). reflexivity. }
        assert (HF : f_sqrt (get_challenge_scalar (F2 := F) (pk b)) = Some (c b) /\ exists ci, c b [*] ci = fone).
        { destruct (run_ex (next b)) as (pf & packed & HR). destruct (HX _ _ HR) as (ci & Hs & Hi & _). split; [exact Hs|exists ci; exact Hi]. }
        destruct HF as (Hs & ci & Hi). destruct (inverse_unique _ _ Hi) as (HN & _).
        split; [exact (sqrt_eq CL _ _ Hs)|]. split; [exact HN|].
        intros pf packed HR. destruct (HX _ _ HR) as (ci' & _ & Hi' & Hk & cs & cis & Ls & Rs & ls & rs & gL & gR & a0 & gg & bb & H1 & H2 & H3 & H4 & H5 & H6 & H7 & H8 & H9 & H10 & H11 & H12 & H13).
        destruct (inverse_unique _ _ Hi') as (_ & ->). split; [exact Hk|].
        rewrite halve_app in H10 by congruence. rewrite halve_app in H11 by congruence.
        exists cs, cis, Ls, Rs, ls, rs, gL, gR, a0, gg, bb. split; [exact H1|]. split; [exact H2|]. split; [exact H3|]. split; [exact H4|]. split; [exact H5|]. split; [exact H6|].
        split; [exact H7|]. split; [exact H8|]. split; [exact H9|]. split; [exact H10|]. split; [exact H11|].
        assert (EI : (fone [/] c b) [*] (fone [/] c b) = fone [/] (c b [*] c b)) by (field; exact HN). rewrite EI in *.
        split; [rewrite <- H12; abel|rewrite <- H13; ring]. }
      assert (LF1 : forall b, length (map (fun '(x, y) => gfold CL (c b, fone [/] c b) x y) (combine glo ghi)) = 2 ^ k') by (intro b; rewrite map_length, combine_length; lia).
      assert (LF2 : forall b, length (map (fun '(x, y) => fold_scalar (c b, fone [/] c b) x y) (combine blo bhi)) = 2 ^ k') by (intro b; rewrite map_length, combine_length; lia).
      assert (HI : forall b, meets (map (fun '(x, y) => gfold CL (c b, fone [/] c b) x y) (combine glo ghi)) (map (fun '(x, y) => fold_scalar (c b, fone [/] c b) x y) (combine blo bhi))
          (gp (gp P (smul (c b [*] c b) gl)) (smul (fone [/] (c b [*] c b)) gr)) (v [+] lv [*] (c b [*] c b) [+] rv [*] (fone [/] (c b [*] c b))) (extract (answers_of j (next b)))).
      { intro b. apply (IH b k'); [apply LF1|apply LF2|apply HC]. }
      set (a := fun b => match extract (answers_of j (next b)) with Coefficients a => a | Relation _ => [] end).
      assert (HU : forall b z, extract (answers_of j (next b)) = Relation z -> meets (glo ++ ghi) (blo ++ bhi) P v (Relation (expand (c b) (fone [/] c b) z))).
      { intros b z EZ. pose proof (HI b) as X. rewrite EZ in X. destruct X as (X1 & X2 & X3). rewrite LF1 in X1.
        apply (up_ok (c b) z glo ghi (blo ++ bhi) P v (2 ^ k')); try assumption. apply HC. }
      cbn [answers_of extract]. fold (c B1) (c B2) (c B3) (c B4).
      destruct (extract (answers_of j (next B1))) as [a1|z] eqn:E1; [|exact (HU B1 z E1)].
      destruct (extract (answers_of j (next B2))) as [a2|z] eqn:E2; [|exact (HU B2 z E2)].
      destruct (extract (answers_of j (next B3))) as [a3|z] eqn:E3; [|exact (HU B3 z E3)].
      destruct (extract (answers_of j (next B4))) as [a4|z] eqn:E4; [|exact (HU B4 z E4)].
      replace a1 with (a B1) by (unfold a; rewrite E1; reflexivity). replace a2 with (a B2) by (unfold a; rewrite E2; reflexivity).
      replace a3 with (a B3) by (unfold a; rewrite E3; reflexivity). replace a4 with (a B4) by (unfold a; rewrite E4; reflexivity).
      assert (HA : forall b, extract (answers_of j (next b)) = Coefficients (a b)).
      { intros []; unfold a; [rewrite E1|rewrite E2|rewrite E3|rewrite E4]; reflexivity. }
      assert (HJ : forall b, length (a b) = 2 ^ k' /\ msum (a b) (map (fun '(x, y) => gfold CL (c b, fone [/] c b) x y) (combine glo ghi))
         = gp (gp P (smul (c b [*] c b) gl)) (smul (fone [/] (c b [*] c b)) gr) /\
         dot (a b) (map (fun '(x, y) => fold_scalar (c b, fone [/] c b) x y) (combine blo bhi)) = v [+] lv [*] (c b [*] c b) [+] rv [*] (fone [/] (c b [*] c b))).
      { intro b. pose proof (HI b) as X. rewrite (HA b) in X. destruct X as (X1 & X2 & X3). rewrite LF1 in X1. split; [exact X1|]. split; assumption. }
      apply (step_ok c a (2 ^ k') glo ghi blo bhi P gl gr v lv rv); try assumption; try (intro b; apply HC || apply HJ).
      intros b b' Hb. rewrite (proj1 (HC b)), (proj1 (HC b')). apply HD, Hb.
  Qed.

  (** *** In the terms of the specification *)
  Definition sound_runs (generators : list C) (m k : nat) (p : prover C) (j : nat) (claim : PolynomialOpening C) : Prop :=
    forall pf packed, run p pf packed -> well_formed m k pf /\ folds_to generators packed (mo_g pf) /\
      forall a, nth_error (mo_a pf) j = Some a -> claim_holds (mo_g pf) (mo_rounds pf) packed j claim a.
  Lemma runs_eqs generators gs m k p j claim P : Forall2 rep generators gs -> rep (po_commitment claim) P -> j < m ->
    sound_runs generators m k p j claim -> eqs j p k gs (powers (po_point claim) (2 ^ k)) P (po_opening claim).
  Proof.
    intros HG HP Hj HS pf packed HR. destruct (HS pf packed HR) as (HW & HF & HC). destruct HW as (_ & HL & Ha & _ & _).
    destruct (nth_error (mo_a pf) j) as [a|] eqn:Ea; [|apply nth_error_None in Ea; lia].
    destruct (HC a eq_refl) as (cs & cis & Ls & Rs & ls & rs & A & b & R1 & R2 & K1 & K2 & K3 & K4 & HA & HB & Hb & HV).
    split; [exact HL|].
    destruct HF as (cs' & cis' & g' & R1' & R2' & Hfold & Hsame).
    rewrite (rooted_unique _ _ _ R1' R1) in *. rewrite (inverses_unique SL _ _ _ R2' R2) in *.
    pose proof (fold_rep CL (combine cs cis) _ _ HG) as HFR. rewrite Hfold in HFR. inversion HFR as [|? gg ? nl Hg' Hnl HE1 HE2]; subst. inversion Hnl; subst.
    assert (Hg : rep (mo_g pf) gg). { destruct Hsame as (B & HB1 & HB2). destruct (rep_ex CL _ _ HB1) as (h & -> & Hh). rewrite (rep_fun CL _ _ _ Hg' HB2). exact Hh. }
    pose proof HA as (As & HAs & _). destruct (reps_ex CL _ _ HAs) as (gsA & _ & HgA). inversion HgA as [|? P0 ? gLR HP0 HLR]; subst.
    rewrite (rep_fun CL _ _ _ HP0 HP) in *. apply Forall2_app_inv_l in HLR. destruct HLR as (gL & gR & HLs & HRs & ->).
    pose proof (Forall2_len _ _ _ R1) as L1. pose proof (Forall2_len _ _ _ R2) as L2.
    pose proof (Forall2_len _ _ _ K1) as L3. pose proof (Forall2_len _ _ _ K2) as L4.
    pose proof (Forall2_len _ _ _ HLs) as L5. pose proof (Forall2_len _ _ _ HRs) as L6.
    assert (Lp : length packed = length (mo_rounds pf)).
    { clear - HR. induction HR; cbn [mo_rounds length] in *; [reflexivity|f_equal; assumption]. }
    apply (combination_iff CL _ _ _ _ HgA) in HA; [|cbn [length]; unfold squares; rewrite !app_length, !map_length; lia].
    apply (combination_iff CL [a] [mo_g pf] [gg] _ ltac:(constructor; [exact Hg|constructor]) eq_refl) in HB.
    exists cs, cis, Ls, Rs, ls, rs, gL, gR, a, gg, b. split; [exact R1|]. split; [exact R2|]. split; [exact K1|]. split; [exact K2|]. split; [exact K3|]. split; [exact K4|].
    split; [exact HLs|]. split; [exact HRs|]. split; [reflexivity|]. split; [symmetry; exact HE2|].
    split; [apply (fold_iff SL packed cs cis _ b R1 R2) in Hb; replace (length (mo_rounds pf)) with (length cs) by lia; exact Hb|].
    split; [|exact HV].
    assert (E : msum (fone :: squares cs ++ squares cis) (P :: gL ++ gR) = msum [a] [gg]) by (apply (cl_inj _ _ _ _ _ CL); unfold msum; rewrite <- HA; exact HB).
    rewrite !msum_cons, msum_app in E by (unfold squares; rewrite map_length; lia). rewrite smul_1 in E. rewrite E. unfold msum. cbn [map MultiexpP.zsum]. abel.
  Qed.
  Lemma dot_powers (v : list F) x : dot v (powers x (length v)) = eval_at v x.
  Proof.
    unfold dot, eval_at. apply fsum_ext. intros i Hi. unfold coeff at 2, powers. f_equal.
    rewrite (nth_indep _ fzero (fpow x 0)) by (rewrite map_length, seq_length; exact Hi). rewrite map_nth, seq_nth by exact Hi. reflexivity.
  Qed.
  Theorem extract_right generators m k p j claim : Forall valid generators -> length generators = 2 ^ k -> valid (po_commitment claim) -> j < m ->
    four_ways p -> sound_runs generators m k p j claim -> right_for generators claim (extract (answers_of j p)).
  Proof.
    intros HV HL HC Hj H4 HS. destruct (valid_ex CL _ HC) as (P & HP).
    assert (HG : exists gs, Forall2 rep generators gs).
    { clear - HV. induction HV as [|g l H _ (gs & IH)]; [exists []; constructor|]. destruct (valid_ex CL g H) as (h & Hh). exists (h :: gs). constructor; assumption. }
    destruct HG as (gs & HG). pose proof (Forall2_len _ _ _ HG) as EL.
    pose proof (extract_ok j p H4 k gs (powers (po_point claim) (2 ^ k)) P (po_opening claim) ltac:(congruence)
      ltac:(unfold powers; rewrite map_length, seq_length; reflexivity) (runs_eqs generators gs m k p j claim P HG HP Hj HS)) as H.
    unfold meets in H. unfold right_for. destruct (extract (answers_of j p)) as [v|z].
    - destruct H as (H1 & H2 & H3). rewrite <- EL in H1. split; [exact H1|]. split.
      + apply (commitment_rep CL _ gs _ _ _ HG). split; [lia|]. unfold position. destruct (po_right_edge claim).
        * replace (length gs - length v) with 0 by lia. cbn [skipn]. fold (msum v gs). rewrite H2. exact HP.
        * replace (length v) with (length gs) by congruence. rewrite firstn_all. fold (msum v gs). rewrite H2. exact HP.
      + rewrite (value_eq CL). unfold offset. rewrite H1, Nat.sub_diag. rewrite <- H3, <- HL, <- H1, dot_powers. destruct (po_right_edge claim); cbn [fpow]; ring.
    - destruct H as (H1 & H2 & H3). split; [congruence|]. split; [exact H2|]. apply (combination_iff CL z generators gs _ HG); [congruence|]. unfold msum in H3. rewrite H3. symmetry. apply (cl_infinity _ _ _ _ _ CL).
  Qed.
End Extract.
