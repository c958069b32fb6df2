(** The statements of Properties/OpeningProps.v. *)
From Coq Require Import ZArith List Bool Arith Lia Ring Field.
From Verif Require Import Lib.AbGroup Model.FieldTrait Model.Circuits Model.Curve Model.Threads Model.Util Model.Rescue Model.Params Model.Opening Model.Proofs
  Spec.FieldLaws Spec.CurveSpec Spec.CurveLaws Spec.UtilSpec Spec.ProofSpec
  Proofs.FieldGen Proofs.ZtoF Proofs.SumP Proofs.CurveTop Proofs.MultiexpP Proofs.FoldP Proofs.ParamsP Proofs.UtilTop Proofs.IdentityP Proofs.SystemP Proofs.OpeningP.
Import ListNotations.
Open Scope nat_scope.
Open Scope list_scope.

Lemma reached_live {F : Field} {p v} (FL : FieldLaws F p v) (t : Rescue F) : reached t -> live t.
Proof.
  induction 1 as [|t x _ IH|t x t' _ IH E]; [apply live_new|exact (live_absorb FL t x IH)|].
  destruct (live_squeeze FL t IH) as (x' & t1 & E' & H). congruence.
Qed.

Section Top.
  Context {C : Curve} {q vb r vs} (CL : CurveLaws C q vb r vs).
  Notation F := (Scalar C).
  Notation rep := (rep CL).
  Notation zsum := (zsum CL).
  Notation G := (cl_group _ _ _ _ _ CL).
  Let SO := fl_ops _ _ _ (cl_scalar _ _ _ _ _ CL).
  Add Field Fs : (ffield SO).

  Lemma Forall2_map_inj {A B D} (R : A -> D -> Prop) (f : B -> D) l : forall l', Forall2 R l (map f l') -> Forall2 (fun a b => R a (f b)) l l'.
  Proof.
    induction l as [|a l IH]; intros [|b l'] H; inversion H; subst; constructor; [assumption|]. apply IH. assumption.
  Qed.
  Lemma reps_fun (l : list C) : forall gs gs', Forall2 rep l gs -> Forall2 rep l gs' -> gs = gs'.
  Proof.
    induction l as [|a l IH]; intros gs gs' H H'; inversion H; inversion H'; subst; [reflexivity|]. f_equal; [eapply rep_fun; eassumption|apply IH; assumption].
  Qed.
  Lemma skip_pos edge (v : list F) {A} (l : list A) : length v <= length l ->
    firstn (length v) (skipn (offset (length l) edge v) l) = position edge (length v) l.
  Proof.
    intro H. unfold offset, position. destruct edge; [|reflexivity]. apply firstn_all2. rewrite skipn_length. lia.
  Qed.
  Lemma skip_map {A B} (f : A -> B) n l : skipn n (map f l) = map f (skipn n l).
  Proof. revert l. induction n as [|n IH]; intros [|x l]; try reflexivity. apply IH. Qed.
  Lemma position_length edge n {A} (l : list A) : n <= length l -> length (position edge n l) = n.
  Proof. intro H. unfold position. destruct edge; [rewrite skipn_length; lia|rewrite firstn_length; lia]. Qed.
  Lemma commitment_rep gens gs edge (v : list F) D : Forall2 rep gens gs ->
    (commitment_to gens edge v D <-> length v <= length gens /\ rep D (zsum (map vs v) (position edge (length v) gs))).
  Proof.
    intro HG. pose proof (Forall2_len _ _ _ HG) as EL. split.
    - intros (HL & As & A & HA & HD & HS). split; [exact HL|].
      destruct (reps_ex CL _ _ HA) as (gs' & -> & HG'). assert (gs' = gs) as -> by exact (reps_fun _ _ _ HG' HG).
      rewrite skip_map, firstn_map, EL, skip_pos in HS by lia.
      apply (som_zsum CL) in HS; [|symmetry; apply position_length; lia]. subst A. exact HD.
    - intros [HL HD]. split; [exact HL|]. exists (map (cl_point _ _ _ _ _ CL) gs), (cl_point _ _ _ _ _ CL (zsum (map vs v) (position edge (length v) gs))).
      split. { clear - HG. induction HG as [|P g l gs H _ IH]; constructor; [exact H|exact IH]. }
      split; [exact HD|]. rewrite skip_map, firstn_map, EL, skip_pos by lia.
      apply (som_zsum CL); [symmetry; apply position_length; lia|reflexivity].
  Qed.
  Lemma value_eq n edge (v : list F) x : value_at (C := C) n edge v x = fmul (eval_at v x) (fpow x (offset n edge v)).
  Proof.
    unfold value_at, eval_at. rewrite <- (fsum_mul_r SO). apply fsum_ext. intros i _. rewrite (fpow_add SO). ring.
  Qed.
  Lemma valid_reps (l : list C) : Forall valid l -> exists gs, Forall2 rep l gs.
  Proof.
    induction 1 as [|P l H _ (gs & IH)]; [exists []; constructor|]. destruct (valid_ex CL P H) as (g & Hg). exists (g :: gs). constructor; assumption.
  Qed.

  Theorem ipa_top M fuel (gens : list C) k t (instances : list (PolynomialOpening C * list F)) : machine_ok M -> 1 <= k <= 32 ->
    length gens = 2 ^ k -> Forall valid gens -> reached t -> Forall (fun ic => true_claim gens (fst ic) (snd ic)) instances ->
    (new_proof M fuel t instances gens k = Running /\ exists t, reached t /\ no_challenge (C := C) fuel t) \/
    exists pf packed g t', new_proof M fuel t instances gens k = Done (pf, packed, g, t') /\ folds_to gens packed g /\ length packed = k /\
      forall claims, Forall2 same_claim (map fst instances) claims ->
        (exists forks, verify_proof pf t claims k = Done (true, packed, g, forks, t')) \/
        (256 < fuel /\ verify_proof pf t claims k = Panicked).
  Proof.
    intros HM Hk HL HV Ht HI. destruct (valid_reps _ HV) as (gs & HG).
    assert (HI' : Forall (fun ic : PolynomialOpening C * list F => length (snd ic) <= 2 ^ k) instances).
    { revert HI. apply Forall_impl. intros [i v] [[H _] _]. cbn [snd] in *. rewrite HL in H. exact H. }
    destruct (ipa_complete CL M fuel k gens gs t instances HM Hk HG HL (reached_live (cl_base _ _ _ _ _ CL) t Ht) HI')
      as [E|(pf & packed & g & t' & E & _ & (cs & cis & Hlc & H1 & H2 & H3) & _ & HVf)]; [left; exact E|right].
    exists pf, packed, g, t'. split; [exact E|]. split.
    { exists cs, cis, g. split; [clear - H1; induction H1; constructor; assumption|]. split; [exact H2|]. split; [exact H3|].
      pose proof (fold_rep CL (combine cs cis) _ _ HG) as HF. rewrite H3 in HF. inversion HF as [|? gg ? ? Hg _]; subst. exists (cl_point _ _ _ _ _ CL gg). split; exact Hg. }
    split; [rewrite <- (Forall2_len _ _ _ H1); exact Hlc|].
    intros claims HC.
    destruct (HVf claims) as [[Hf Ep]|(forks & Hd & _)]; [|right; split; assumption|left; exists forks; exact Hd].
    clear - HC HI HG HL SO. revert claims HC. induction HI as [|[i v] l [T1 T2] _ IH]; intros claims HC; cbn [map] in HC; inversion HC as [|a j li lv (S1 & S2 & S3) HC']; subst; constructor; [|exact (IH _ HC')].
    cbn [fst snd] in *. split; [cbn [fst]; symmetry; exact S3|]. cbn [fst snd]. unfold true_opening. cbn [po_commitment po_opening po_point po_right_edge].
    apply (commitment_rep _ _ _ _ _ HG) in T1. destruct T1 as [T1 T3]. rewrite <- HL. split; [exact T1|]. split.
    - destruct S1 as (A & R1 & R2). rewrite (represents_fun CL _ _ _ R1 T3) in R2. exact R2.
    - rewrite <- S2, T2, value_eq. reflexivity.
  Qed.

  (** the commitment of [Params::commit] and the value of [compute_opening] make a true claim *)
  Lemma honest_claim M (P : Params C) (v : list F) x edge : machine_ok M -> Forall valid (p_generators P) -> (Z.of_nat (length (p_generators P)) < 2 ^ 32)%Z ->
    length v <= length (p_generators P) -> exists D o, commit M P v edge = Some D /\ compute_opening P v x edge = Some o /\
      true_claim (p_generators P) (mkOpening D o x edge) v.
  Proof.
    intros HM HV HZ HL. destruct (valid_reps _ HV) as (gs & HG).
    destruct (commit_rep CL M P gs v edge HM HG HZ HL) as (D & ED & HD).
    exists D, (value_at (C := C) (length (p_generators P)) edge v x). split; [exact ED|]. split.
    - rewrite (opening_eq CL) by (first [intros _; exact HL | eapply Z.lt_trans; [exact HZ|reflexivity]]). f_equal. rewrite value_eq. unfold offset. reflexivity.
    - split; [|reflexivity]. cbn [po_commitment po_right_edge]. apply (commitment_rep _ _ _ _ _ HG). split; [exact HL|]. unfold position.
      pose proof (Forall2_len _ _ _ HG). destruct edge; exact HD.
  Qed.
End Top.
