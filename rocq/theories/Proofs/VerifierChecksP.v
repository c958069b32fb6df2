(** The equations of the claims, in the group. *)
From Coq Require Import String List Bool Arith ZArith Lia Ring Field.
From Verif Require Import Lib.AbGroup Lib.Abel Model.FieldTrait Model.Circuits Model.Num Model.Boolean Model.Curve Model.Ecc Model.Threads Model.Params Model.Util
  Model.Rescue Model.RescueGadget Model.Opening Model.Proofs Model.Recursion
  Spec.FieldLaws Spec.CircuitSpec Spec.NumSpec Spec.BoolSpec Spec.UtilSpec Spec.CurveSpec Spec.CurveLaws Spec.EccSpec Spec.ProofSpec Spec.VerifySpec Spec.RecursionSpec Spec.RecursiveCircuitSpec
  Proofs.FieldGen Proofs.ZtoF Proofs.CircuitP Proofs.LcP Proofs.NumP Proofs.BoolP Proofs.UnpackP Proofs.ChallengeP Proofs.CurveTop Proofs.EccP Proofs.EccAddP Proofs.EccMulP Proofs.MultiexpP Proofs.IdentityP
  Proofs.DeferredTop Proofs.ProverLemmas Proofs.ProverTop
  Proofs.RescueGadgetP Proofs.RecursionP Proofs.ModeP Proofs.RecursionDeferredP Proofs.TranscriptGadgetP Proofs.EncodeP Proofs.RecursionGlue Proofs.VerifyP Proofs.VerifyTop Proofs.SliceP Proofs.VerifierGadgetP
  Proofs.HonP Proofs.VerifierRoundsP Proofs.VerifierCircuitP.
Import ListNotations.
Open Scope nat_scope. Open Scope list_scope.

Section Checks.
  Context {C : Curve} {q vb r vs} (CL : CurveLaws C q vb r vs).
  Notation F := (Scalar C).
  Let SL : FieldLaws F r vs := cl_scalar _ _ _ _ _ CL.
  Let SO : OpsLaws F r vs := fl_ops _ _ _ SL.
  Add Field Fs : (ffield SO).
  Notation G := (cl_group _ _ _ _ _ CL).
  Notation gen := (cl_gen _ _ _ _ _ CL).
  Notation rep := (CurveTop.rep CL).
  Notation zs := (EccMulP.zs CL).
  Notation zsum := (MultiexpP.zsum CL).
  Notation mrep := (mrep CL).
  Notation grounds := (grounds CL).
  Notation gmsg := (G * G * G * G)%type.
  Implicit Types (g h : G).

  Definition mL (m : gmsg) : G := let '(L, _, _, _) := m in L.
  Definition mR (m : gmsg) : G := let '(_, R, _, _) := m in R.
  Definition ml (m : gmsg) : G := let '(_, _, l, _) := m in l.
  Definition mr (m : gmsg) : G := let '(_, _, _, rr) := m in rr.

  Lemma grounds_nth j us : forall gmss col, Forall2 (fun gms gm => nth_error gms j = Some gm) gmss col -> length us = length gmss -> forall gvs p v, nth_error gvs j = Some (p, v) ->
    nth_error (grounds us gmss gvs) j =
      Some (gp p (gp (zsum (map vs (map fst us)) (map mL col)) (zsum (map vs (map snd us)) (map mR col))),
            gp v (gp (zsum (map vs (map fst us)) (map ml col)) (zsum (map vs (map snd us)) (map mr col)))).
  Proof.
    induction us as [|[u ui] us IH]; intros gmss col HC HL gvs p v E; destruct HC as [|gms gm gmss col H HC]; try discriminate HL; cbn [VerifierRoundsP.grounds].
    - rewrite E. cbn [map MultiexpP.zsum]. f_equal. f_equal; abel.
    - assert (E' : nth_error (ground CL u ui gvs gms) j = Some (gstep CL u ui (p, v) gm)).
      { unfold ground. exact (map_nth_error (fun '(gv, gm) => gstep CL u ui gv gm) j _ (nth_combine _ _ _ _ _ E H)). }
      destruct gm as [[[L R] l] rr]. cbn [gstep] in E'. rewrite (IH gmss col HC ltac:(cbn [length] in HL; lia) _ _ _ E').
      cbn [map fst snd MultiexpP.zsum mL mR ml mr]. unfold EccMulP.zs. f_equal. f_equal; abel.
  Qed.

  Lemma said_column t rounds mss packeds forks t' : said 5 t rounds mss packeds forks t' -> forall gmss j, Forall2 (Forall2 mrep) mss gmss -> j < 5 ->
    forall Ls Rs ls rs,
      Forall2 (fun round L => nth_error (ip_L round) j = Some L) rounds Ls ->
      Forall2 (fun round R => nth_error (ip_R round) j = Some R) rounds Rs ->
      Forall2 (fun round l => nth_error (ip_l round) j = Some l) rounds ls ->
      Forall2 (fun round r => nth_error (ip_r round) j = Some r) rounds rs ->
    exists col, Forall2 (fun gms gm => nth_error gms j = Some gm) gmss col /\ length col = length rounds /\
      Forall2 rep Ls (map mL col) /\ Forall2 rep Rs (map mR col) /\ map ml col = map (fun l => zs l gen) ls /\ map mr col = map (fun l => zs l gen) rs.
  Proof.
    induction 1 as [t|t round ms n c t1 rounds mss packeds fs t' HS Hn HC _ IH]; intros gmss j HM Hj Ls Rs ls rs C1 C2 C3 C4.
    - inversion HM; subst. inversion C1; subst. inversion C2; subst. inversion C3; subst. inversion C4; subst. exists []. repeat split; constructor.
    - inversion HM as [|a gms b gmss' Hms Hmss]; subst. inversion C1 as [|a1 L b1 Ls' N1 C1']; subst. inversion C2 as [|a2 R b2 Rs' N2 C2']; subst.
      inversion C3 as [|a3 l b3 ls' N3 C3']; subst. inversion C4 as [|a4 rr b4 rs' N4 C4']; subst.
      destruct (IH gmss' j Hmss Hj _ _ _ _ C1' C2' C3' C4') as (col & K1 & K2 & K3 & K4 & K5 & K6). destruct HS as (HL & S1 & S2 & S3 & S4).
      assert (Hm : exists m, nth_error ms j = Some m). { destruct (nth_error ms j) eqn:E; [eexists; reflexivity|]. apply nth_error_None in E. lia. }
      destruct Hm as ([[[L0 R0] l0] r0] & Em).
      assert (N : forall {A} (sel : InnerProductRound C -> list A) (f : C * C * F * F -> A) x, firstn 5 (sel round) = map f ms -> nth_error (sel round) j = Some x -> x = f (L0, R0, l0, r0)).
      { intros A sel f x E Ex. rewrite <- (nth_firstn_lt _ 5 j Hj), E in Ex. rewrite (map_nth_error f j ms Em) in Ex. congruence. }
      pose proof (N _ ip_L _ L S1 N1) as ->. pose proof (N _ ip_R _ R S2 N2) as ->. pose proof (N _ ip_l _ l S3 N3) as ->. pose proof (N _ ip_r _ rr S4 N4) as ->.
      assert (Hg : exists gm, nth_error gms j = Some gm /\ mrep (L0, R0, l0, r0) gm).
      { clear - Hms Em. revert ms gms Hms Em. induction j as [|j IHj]; intros ms gms Hms Em; destruct Hms as [|m gm ms gms H Hms]; cbn [nth_error] in Em; try discriminate; [injection Em as ->; exists gm; split; [reflexivity|exact H]|].
        destruct (IHj ms gms Hms Em) as (gm' & E' & H'). exists gm'. split; assumption. }
      destruct Hg as (gm & Eg & Hg). exists (gm :: col). destruct gm as [[[gL gR] gl] gr]. destruct Hg as (R1 & R2 & -> & ->).
      split; [constructor; assumption|]. split; [cbn [length]; congruence|]. cbn [map mL mR ml mr]. split; [constructor; assumption|]. split; [constructor; assumption|]. split; f_equal; assumption.
  Qed.
  Lemma zsum_dot (ss : list F) : forall ls, length ss = length ls -> zsum (map vs ss) (map (fun l => zs l gen) ls) = zs (dot ss ls) gen.
  Proof.
    induction ss as [|s ss IH]; intros [|l ls] H; try discriminate H; cbn [map MultiexpP.zsum]; [rewrite (dot_nil (F := F)), (zs_zero CL); reflexivity|].
    cbn [length] in H. rewrite (IH ls) by lia. rewrite (dot_cons SO), (zs_add CL), (zs_mul CL). reflexivity.
  Qed.
  Lemma fold_to_fun (packed : list F) x b b' : powers_fold_to packed x b -> powers_fold_to packed x b' -> b = b'.
  Proof.
    intros (cs & cis & A1 & A2 & A3) (cs' & cis' & B1 & B2 & B3).
    pose proof (rooted_fun _ _ _ B1 A1) as ->. pose proof (inverses_unique SL _ _ _ B2 A2) as ->. congruence.
  Qed.

  Lemma said_columns t rounds mss packeds forks t' j : said 5 t rounds mss packeds forks t' -> j < 5 -> exists Ls Rs ls rs : list _,
    Forall2 (fun (round : InnerProductRound C) L => nth_error (ip_L round) j = Some L) rounds Ls /\
    Forall2 (fun (round : InnerProductRound C) R => nth_error (ip_R round) j = Some R) rounds Rs /\
    Forall2 (fun (round : InnerProductRound C) l => nth_error (ip_l round) j = Some l) rounds ls /\
    Forall2 (fun (round : InnerProductRound C) r => nth_error (ip_r round) j = Some r) rounds rs.
  Proof.
    intros HS Hj. induction HS as [t|t round ms n c t1 rounds mss packeds fs t' HS Hn HC _ (Ls & Rs & ls & rs & I1 & I2 & I3 & I4)]; [exists [], [], [], []; repeat split; constructor|].
    destruct HS as (HL & S1 & S2 & S3 & S4).
    assert (Hm : exists m, nth_error ms j = Some m). { destruct (nth_error ms j) eqn:E; [eexists; reflexivity|]. apply nth_error_None in E. lia. }
    destruct Hm as (m & Em).
    assert (N : forall {A} (l : list A) (f : C * C * F * F -> A), firstn 5 l = map f ms -> nth_error l j = Some (f m)).
    { intros A l f E. rewrite <- (nth_firstn_lt _ 5 j Hj), E. exact (map_nth_error f j ms Em). }
    eexists (_ :: Ls), (_ :: Rs), (_ :: ls), (_ :: rs). split; [constructor; [exact (N _ _ _ S1)|exact I1]|]. split; [constructor; [exact (N _ _ _ S2)|exact I2]|].
    split; [constructor; [exact (N _ _ _ S3)|exact I3]|constructor; [exact (N _ _ _ S4)|exact I4]].
  Qed.
  Lemma columns_eq {A} (f : InnerProductRound C -> option A) rounds : forall l l', Forall2 (fun round x => f round = Some x) rounds l -> Forall2 (fun round x => f round = Some x) rounds l' -> l = l'.
  Proof. induction rounds as [|round rounds IH]; intros l l' H H'; inversion H; inversion H'; subst; [reflexivity|]. f_equal; [congruence|]. apply IH; assumption. Qed.
  Lemma scaled_split (packeds : list F) us : Forall2 scaled packeds us -> Forall2 (fun pk u => u = get_challenge_scalar pk) packeds (map fst us) /\ Forall2 (fun u ui => fmul u ui = fone) (map fst us) (map snd us).
  Proof. induction 1 as [|c u packeds us [E1 E2] _ [I1 I2]]; split; cbn [map]; constructor; assumption. Qed.

  Lemma adds_up_group t rounds mss packeds forks t' gmss us j claim a (Q : C) gn gP p v gvs b :
    said 5 t rounds mss packeds forks t' -> Forall2 (Forall2 mrep) mss gmss -> Forall2 scaled packeds us -> j < 5 ->
    rep Q gn -> rep (po_commitment claim) gP ->
    nth_error gvs j = Some (gP, zs (po_opening claim) gen) ->
    nth_error (grounds us gmss gvs) j = Some (p, v) -> (claim_adds_up Q rounds packeds j claim a b <-> p = zs a gn /\ v = zs (fmul b a) gen).
  Proof.
    intros HS HM HU Hj Hg HP EV EG.
    destruct (said_columns _ _ _ _ _ _ j HS Hj) as (Ls & Rs & ls & rs & C1 & C2 & C3 & C4).
    destruct (said_column _ _ _ _ _ _ HS gmss j HM Hj _ _ _ _ C1 C2 C3 C4) as (col & Q1 & Q2 & Q3 & Q4 & Q5 & Q6).
    destruct (scaled_split _ _ HU) as [U1 U2].
    pose proof (UnpackP.Forall2_length _ _ _ HU) as L1.
    pose proof (UnpackP.Forall2_length _ _ _ Q1) as L4. pose proof (UnpackP.Forall2_length _ _ _ C1) as L5. pose proof (UnpackP.Forall2_length _ _ _ C2) as L6.
    pose proof (UnpackP.Forall2_length _ _ _ C3) as L7. pose proof (UnpackP.Forall2_length _ _ _ C4) as L8.
    assert (L9 : length packeds = length rounds) by (clear - HS; induction HS; [reflexivity|]; cbn [length]; congruence).
    rewrite (grounds_nth j us gmss col Q1 ltac:(congruence) gvs _ _ EV) in EG. rewrite Q5, Q6 in EG.
    rewrite !zsum_dot in EG by (rewrite map_length; congruence). rewrite <- !(zs_add CL) in EG. injection EG as <- <-.
    set (K := gp gP (gp (zsum (map vs (map fst us)) (map mL col)) (zsum (map vs (map snd us)) (map mR col)))).
    assert (HK : forall A, combination (fone :: map fst us ++ map snd us) (po_commitment claim :: Ls ++ Rs) A <-> A = cl_point _ _ _ _ _ CL K).
    { intro A. rewrite (combination_iff CL _ _ (gP :: map mL col ++ map mR col)); [|constructor; [exact HP|apply Forall2_app; assumption]|cbn [length]; rewrite !app_length, !map_length; congruence].
      cbn [map MultiexpP.zsum]. rewrite map_app, (zsum_app CL) by (rewrite !map_length; congruence). rewrite (ol_one _ _ _ SO).
      assert (Z1 : zmul 1 gP = gP) by abel. rewrite Z1. reflexivity. }
    assert (HA : forall A, combination [a] [Q] A <-> A = cl_point _ _ _ _ _ CL (zs a gn)).
    { intro A. rewrite (combination_iff CL [a] [Q] [gn]); [|repeat constructor; exact Hg|reflexivity]. cbn [map MultiexpP.zsum]. rewrite gp_0_r. reflexivity. }
    split.
    - intros (us' & uis' & Ls' & Rs' & ls' & rs' & A & B1 & B2 & D1 & D2 & D3 & D4 & K1 & K2 & HO).
      pose proof (columns_eq _ _ _ _ D1 C1) as ->. pose proof (columns_eq _ _ _ _ D2 C2) as ->. pose proof (columns_eq _ _ _ _ D3 C3) as ->. pose proof (columns_eq _ _ _ _ D4 C4) as ->.
      assert (us' = map fst us) as ->. { clear - B1 U1. revert us' B1. induction U1; intros us' B1; inversion B1; subst; [reflexivity|]. f_equal; auto. }
      pose proof (inverses_unique SL _ _ _ B2 U2) as ->.
      apply HK in K1. apply HA in K2. split; [eapply (cl_inj _ _ _ _ _ CL); congruence|]. f_equal. rewrite HO. ring.
    - intros [E1 E2]. exists (map fst us), (map snd us), Ls, Rs, ls, rs, (cl_point _ _ _ _ _ CL K).
      split; [exact U1|]. split; [exact U2|]. split; [exact C1|]. split; [exact C2|]. split; [exact C3|]. split; [exact C4|].
      split; [apply HK; reflexivity|]. split; [apply HA; rewrite E1; reflexivity|].
      apply (zs_inj CL _ _ gen (cl_gen_nonzero _ _ _ _ _ CL)) in E2. rewrite E2. ring.
  Qed.
  (** a claim that holds adds up *)
  Lemma holds_adds_up (Q : C) rounds packeds j claim a b : claim_holds Q rounds packeds j claim a -> powers_fold_to packeds (po_point claim) b -> claim_adds_up Q rounds packeds j claim a b.
  Proof.
    intros (cs & cis & Ls & Rs & ls & rs & A & b' & H1 & H2 & C1 & C2 & C3 & C4 & K1 & K2 & HB & HO) HB'.
    rewrite (fold_to_fun _ _ _ _ HB' HB). exists (squares cs), (squares cis), Ls, Rs, ls, rs, A.
    split. { clear - H1 SL SO. induction H1 as [|pk c packeds cs E _ IH]; cbn [squares map]; constructor; [|exact IH].
      apply (ol_inj _ _ _ SO). rewrite (ol_mul _ _ _ SO). apply (fl_sqrt_some _ _ _ SL), E. }
    split. { clear - H2 SL SO. induction H2 as [|c ci cs cis E _ IH]; cbn [squares map]; constructor; [|exact IH].
      transitivity (fmul (fmul c ci) (fmul c ci)); [ring|]. rewrite E. ring. }
    repeat (split; [assumption|]). exact HO.
  Qed.
End Checks.
