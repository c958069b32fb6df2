(** Soundness of the whole proof system: from conversations that pass to what the
    extractor needs. *)
From Coq Require Import ZArith List Bool Arith Lia Ring Field.
From Verif Require Import Lib.AbGroup Lib.Abel Model.FieldTrait Model.Circuits Model.Curve Model.Util Model.Params Model.Opening Model.Proofs
  Spec.FieldLaws Spec.CircuitSpec Spec.CurveSpec Spec.CurveLaws Spec.UtilSpec Spec.SystemSpec Spec.ProofSpec Spec.VerifySpec Spec.RecursiveCircuitSpec Spec.ExtractSpec Spec.SoundnessSpec
  Proofs.FieldGen Proofs.SumP Proofs.PolyMulP Proofs.ParamsP Proofs.CurveTop Proofs.MultiexpP Proofs.IdentityP Proofs.SystemP Proofs.ProverLemmas Proofs.OpeningTop Proofs.VerifyP Proofs.DeferredTop
  Proofs.ExtractP Proofs.SoundAlgebraP Proofs.SoundLinearP Proofs.SoundP.
Import ListNotations.
Open Scope nat_scope.
Open Scope list_scope.

Section SoundTop.
  Context {C : Curve} {q vb r vs} (CL : CurveLaws C q vb r vs).
  Notation G := (cl_group _ _ _ _ _ CL).
  Notation rep := (rep CL).
  Notation F := (Scalar C).
  Let SL := cl_scalar _ _ _ _ _ CL.
  Let SO := fl_ops _ _ _ SL.
  Add Field Fs : (ffield SO).
  Infix "[+]" := fadd (at level 50, left associativity).
  Infix "[-]" := fsub (at level 50, left associativity).
  Infix "[*]" := fmul (at level 40, left associativity).
  Notation msum := (msum CL).
  Notation smul := (smul CL).

  Lemma holds_same g rounds packed j claim claim' (a : F) P : rep (po_commitment claim) P -> rep (po_commitment claim') P ->
    po_opening claim = po_opening claim' -> po_point claim = po_point claim' ->
    claim_holds g rounds packed j claim a -> claim_holds g rounds packed j claim' a.
  Proof.
    intros H1 H2 E1 E2 (cs & cis & Ls & Rs & ls & rs & A & b & R1 & R2 & K1 & K2 & K3 & K4 & (As & HA & HS) & HB & Hb & HV).
    exists cs, cis, Ls, Rs, ls, rs, A, b. rewrite <- E1, <- E2. split; [exact R1|]. split; [exact R2|]. split; [exact K1|]. split; [exact K2|]. split; [exact K3|]. split; [exact K4|].
    split; [|split; [exact HB|split; [exact Hb|exact HV]]]. exists As. split; [|exact HS].
    inversion HA as [|? A0 ? As' H3 H4]; subst. constructor; [|exact H4]. rewrite (represents_fun CL _ _ _ H3 H1). exact H2.
  Qed.
  Lemma fold_unique (packed : list F) x b b' : powers_fold_to packed x b -> powers_fold_to packed x b' -> b = b'.
  Proof.
    intros (cs & cis & R1 & R2 & H1) (cs' & cis' & R1' & R2' & H2). rewrite (rooted_unique _ _ _ R1' R1) in *. rewrite (inverses_unique SL _ _ _ R2' R2) in *. congruence.
  Qed.
  Lemma msum_resize (v : list F) m : length v <= m -> forall gs, length gs = m -> msum (resize v m) gs = zsum CL (map vs v) (firstn (length v) gs).
  Proof.
    intros HL gs Hg. rewrite (resize_app v m HL), <- (firstn_skipn (length v) gs) at 1.
    rewrite (msum_app CL) by (rewrite firstn_length; lia). rewrite (msum_zero CL), gp_0_r. reflexivity.
  Qed.
  Lemma commit_msum gens gs (v : list F) D : Forall2 rep gens gs -> commitment_to gens false v D -> rep D (msum (resize v (length gens)) gs).
  Proof.
    intros HG H. apply (commitment_rep CL _ gs _ _ _ HG) in H. destruct H as (HL & HD). rewrite msum_resize; [exact HD|exact HL|]. symmetry. exact (Forall2_len _ _ _ HG).
  Qed.

  Theorem sem_holds (P : Params C) circuit (K : C) (k : list F) (L : Leftovers C) s_poly (gs : list G) Q T :
    good_params P -> Forall2 rep (p_generators P) gs ->
    (forall y, compute_sx P circuit y = Done (Ok (s_poly y))) -> commitment_to (p_generators P) false k K ->
    enough (p_n P) Q T ->
    (forall pf y x yn z packed, conversed T pf y x yn z packed -> convinced P circuit K k L pf y x yn z packed) ->
    sem0 CL (p_n P) s_poly k gs Q (scalars0 T).
  Proof.
    intros (Pk & Pd & Pn & PL & PV) HG Hs HK HE HC. pose proof (Forall2_len _ _ _ HG) as EL.
    assert (HN : 1 <= p_n P) by (pose proof (Nat.pow_nonzero 2 (p_k P)); lia).
    pose proof (commit_msum _ _ _ _ HG HK) as RK. rewrite PL, <- Pn in RK.
    destruct HE as (D0 & L0 & E0).
    (* there is a conversation below each message *)
    assert (X3 : forall y T1 x T2 yn T3, In (y, T1) (with_y _ _ T) -> In (x, T2) (with_x _ _ T1) -> In (yn, T3) (with_y_new _ _ T2) ->
      exists z p ip packed, In (z, p) (with_z _ _ T3) /\ run p ip packed).
    { intros y T1 x T2 yn T3 I0 I1 I2. destruct (E0 _ _ I0) as (_ & _ & E1). destruct (E1 _ _ I1) as (_ & _ & E2). destruct (E2 _ _ I2) as (_ & LZ & _).
      destruct (with_z _ _ T3) as [|[z p] l]; [discriminate LZ|]. destruct (run_ex p) as (ip & packed & HR). exists z, p, ip, packed. split; [left; reflexivity|exact HR]. }
    assert (X2 : forall y T1 x T2, In (y, T1) (with_y _ _ T) -> In (x, T2) (with_x _ _ T1) -> exists yn T3, In (yn, T3) (with_y_new _ _ T2)).
    { intros y T1 x T2 I0 I1. destruct (E0 _ _ I0) as (_ & _ & E1). destruct (E1 _ _ I1) as (_ & L2 & _).
      destruct (with_y_new _ _ T2) as [|[yn T3] l]; [cbn in L2; lia|]. exists yn, T3. left. reflexivity. }
    assert (X1 : forall y T1, In (y, T1) (with_y _ _ T) -> exists x T2, In (x, T2) (with_x _ _ T1)).
    { intros y T1 I0. destruct (E0 _ _ I0) as (_ & L1 & _). destruct (with_x _ _ T1) as [|[x T2] l]; [cbn in L1; lia|]. exists x, T2. left. reflexivity. }
    assert (X0 : exists y T1, In (y, T1) (with_y _ _ T)).
    { destruct (with_y _ _ T) as [|[y T1] l]; [cbn in L0; lia|]. exists y, T1. left. reflexivity. }
    assert (CC : forall y T1 x T2 yn T3 z p ip packed, In (y, T1) (with_y _ _ T) -> In (x, T2) (with_x _ _ T1) -> In (yn, T3) (with_y_new _ _ T2) -> In (z, p) (with_z _ _ T3) -> run p ip packed ->
      convinced P circuit K k L (mkProof (r_sent _ _ T) (s_cur_sent _ _ T1) (t_positive_sent _ _ T1) (t_negative_sent _ _ T1) (c_sent _ _ T2) (s_new_sent _ _ T3)
             (rx_sent _ _ T3) (rxy_sent _ _ T3) (sx_old_sent _ _ T3) (sx_cur_sent _ _ T3) (tx_positive_sent _ _ T3) (tx_negative_sent _ _ T3)
             (sx_new_sent _ _ T3) ip) y x yn z packed).
    { intros y T1 x T2 yn T3 z p ip packed I0 I1 I2 I3 HR. apply HC. exists T1, T2, T3, p, ip. repeat (split; [assumption|]). reflexivity. }
    clear HC.
    assert (V3 : forall y T1 x T2 yn T3, In (y, T1) (with_y _ _ T) -> In (x, T2) (with_x _ _ T1) -> In (yn, T3) (with_y_new _ _ T2) ->
      Forall valid [r_sent _ _ T; s_cur_sent _ _ T1; t_positive_sent _ _ T1; t_negative_sent _ _ T1; c_sent _ _ T2; s_new_sent _ _ T3; s_new_commitment L; g_new L]).
    { intros y T1 x T2 yn T3 I0 I1 I2. destruct (X3 _ _ _ _ _ _ I0 I1 I2) as (z & p & ip & packed & I3 & HR).
      destruct (CC _ _ _ _ _ _ _ _ _ _ I0 I1 I2 I3 HR) as (HW & _). exact (proj1 HW). }
    assert (V2 : forall y T1 x T2, In (y, T1) (with_y _ _ T) -> In (x, T2) (with_x _ _ T1) ->
      Forall valid [r_sent _ _ T; s_cur_sent _ _ T1; t_positive_sent _ _ T1; t_negative_sent _ _ T1; c_sent _ _ T2]).
    { intros y T1 x T2 I0 I1. destruct (X2 _ _ _ _ I0 I1) as (yn & T3 & I2). pose proof (V3 _ _ _ _ _ _ I0 I1 I2) as V.
      apply (Forall_app valid [r_sent _ _ T; s_cur_sent _ _ T1; t_positive_sent _ _ T1; t_negative_sent _ _ T1; c_sent _ _ T2] [s_new_sent _ _ T3; s_new_commitment L; g_new L]) in V. exact (proj1 V). }
    assert (V1 : forall y T1, In (y, T1) (with_y _ _ T) -> Forall valid [r_sent _ _ T; s_cur_sent _ _ T1; t_positive_sent _ _ T1; t_negative_sent _ _ T1]).
    { intros y T1 I0. destruct (X1 _ _ I0) as (x & T2 & I1). pose proof (V2 _ _ _ _ I0 I1) as V.
      apply (Forall_app valid [r_sent _ _ T; s_cur_sent _ _ T1; t_positive_sent _ _ T1; t_negative_sent _ _ T1] [c_sent _ _ T2]) in V. exact (proj1 V). }
    assert (gr : exists g, rep (r_sent _ _ T) g).
    { destruct X0 as (y & T1 & I0). pose proof (Forall_inv (V1 _ _ I0)) as V. exact (valid_ex CL _ V). }
    destruct gr as (gr & Hgr).
    assert (MM : forall {A B} (f : A -> B) (l : list (F * A)), map fst (map (fun '(t, a) => (t, f a)) l) = map fst l).
    { intros A B f l. rewrite map_map. apply map_ext. intros [? ?]. reflexivity. }
    assert (MI : forall {A B} (f : A -> B) (l : list (F * A)) t b, In (t, b) (map (fun '(t, a) => (t, f a)) l) -> exists a, b = f a /\ In (t, a) l).
    { intros A B f l t b HI. apply in_map_iff in HI. destruct HI as ([t' a] & E & HI). injection E as <- <-. exists a. split; [reflexivity|exact HI]. }
    unfold sem0, scalars0. cbn [with_y]. rewrite MM, map_length. split; [exact D0|]. split; [exact L0|]. exists gr.
    intros y S1 I0. apply MI in I0. destruct I0 as (T1 & -> & I0). destruct (E0 _ _ I0) as (D1 & L1 & E1).
    pose proof (V1 _ _ I0) as VA. inversion VA as [|? ? _ VA1]; subst. inversion VA1 as [|? ? Vsc VA2]; subst. inversion VA2 as [|? ? Vtp VA3]; subst. pose proof (Forall_inv VA3) as Vtn.
    destruct (valid_ex CL _ Vsc) as (gsc & Hsc). destruct (valid_ex CL _ Vtp) as (gtp & Htp). destruct (valid_ex CL _ Vtn) as (gtn & Htn).
    unfold sem1, scalars1. cbn [with_x]. rewrite MM, map_length. split; [exact D1|]. split; [exact L1|]. exists gtp, gtn.
    intros x S2 I1. apply MI in I1. destruct I1 as (T2 & -> & I1). destruct (E1 _ _ I1) as (D2 & L2 & E2).
    assert (gc : exists g, rep (c_sent _ _ T2) g).
    { apply (valid_ex CL). pose proof (V2 _ _ _ _ I0 I1) as V. rewrite Forall_forall in V. apply V. cbn. tauto. }
    destruct gc as (gc & Hgc).
    unfold sem2, scalars2. cbn [with_y_new]. rewrite MM, map_length. split; [exact D2|]. split; [exact L2|]. exists gc.
    intros yn S3 I2. apply MI in I2. destruct I2 as (T3 & -> & I2). destruct (E2 _ _ I2) as (D3 & L3 & E3).
    assert (go : exists g g', rep (s_new_commitment L) g /\ rep (g_new L) g').
    { pose proof (V3 _ _ _ _ _ _ I0 I1 I2) as V. rewrite Forall_forall in V.
      destruct (valid_ex CL (s_new_commitment L)) as (g & Hg); [apply V; cbn; tauto|]. destruct (valid_ex CL (g_new L)) as (g' & Hg'); [apply V; cbn; tauto|]. exists g, g'. split; assumption. }
    destruct go as (gso & ggo & Hso & Hgo).
    (* what one conversation says *)
    destruct (X3 _ _ _ _ _ _ I0 I1 I2) as (z0 & p0 & ip0 & packed0 & I30 & HR0).
    destruct (CC _ _ _ _ _ _ _ _ _ _ I0 I1 I2 I30 HR0) as (_ & (gx & _ & Hgx & _) & (_ & _ & sx & Esx & Csx) & (DD & xi & yi & F1 & F2 & F3 & F4 & F5 & F6 & F7 & F8 & Hx & Hy & EQ)).
    cbn [s_new_commitment y_new pf_s_new_commitment] in Esx, Csx. rewrite Hs in Esx. injection Esx as Esx. subst sx.
    pose proof (commit_msum _ _ _ _ HG Csx) as Hsn. rewrite PL, <- Pn in Hsn.
    unfold sem3, scalars3. cbn [with_z rx_sent rxy_sent sx_old_sent sx_cur_sent tx_positive_sent tx_negative_sent sx_new_sent].
    split. { rewrite map_map. rewrite (map_ext _ (fun zp => get_challenge_scalar (fst zp))); [exact D3|]. intros [? ?]. reflexivity. }
    split; [rewrite map_length; exact L3|].
    split. { exists xi, yi. split; [exact Hx|]. split; [exact Hy|]. unfold deferred_equation in EQ. cbv zeta in EQ. rewrite F1, F2, F3, F4, F5, F6, F7, F8 in EQ.
      exact EQ. }
    exists gso, gsc, ggo, gx. intros zA IZ. apply in_map_iff in IZ. destruct IZ as ([z p] & <- & I3). unfold zof. cbn [fst snd].
    pose proof (E3 _ _ I3) as F4w. set (z' := get_challenge_scalar z).
    set (P0 := msum (falling z') [gr; gso; gsc; gtp; gtn; msum (resize (s_poly yn) (4 * p_n P)) gs; ggo]).
    set (P3 := gp gc (smul z' (msum (resize k (4 * p_n P)) gs))).
    (* the claims of any run below *)
    assert (CR : forall ip packed, run p ip packed -> well_formed 5 (p_k P) ip /\ folds_to (p_generators P) packed (mo_g ip) /\
      exists claims A0 A3, rep A0 P0 /\ rep A3 P3 /\ map po_commitment claims = [A0; r_sent _ _ T; c_sent _ _ T2; A3; c_sent _ _ T2] /\
        map po_opening claims = [dot (falling z') [rx_sent _ _ T3; sx_old_sent _ _ T3; sx_cur_sent _ _ T3; tx_positive_sent _ _ T3; tx_negative_sent _ _ T3; sx_new_sent _ _ T3; gx];
          rxy_sent _ _ T3; sx_old_sent _ _ T3; sx_cur_sent _ _ T3 [+] z' [*] eval_at k y; sx_new_sent _ _ T3] /\
        map po_point claims = [x; x [*] y; y_new L; y; yn] /\
        forall j claim a, nth_error claims j = Some claim -> nth_error (mo_a ip) j = Some a -> claim_holds (mo_g ip) (mo_rounds ip) packed j claim a).
    { intros ip packed HR. destruct (CC _ _ _ _ _ _ _ _ _ _ I0 I1 I2 I3 HR) as ((_ & HW & _) & (gx' & claims & Hgx' & HF & HH) & (_ & Hfo & _) & _).
      cbn [pf_inner_product mo_g challenges_sq_packed_new g_new] in *. rewrite (fold_unique _ _ _ _ Hgx' Hgx) in HF.
      destruct HF as (A0 & A3 & A & B & HA & HB & CA & CB & M1 & M2 & M3).
      cbn [pf_r_commitment pf_s_cur_commitment pf_t_positive_commitment pf_t_negative_commitment pf_c_commitment pf_s_new_commitment
           pf_rx_opening pf_rxy_opening pf_sx_old_opening pf_sx_cur_opening pf_tx_positive_opening pf_tx_negative_opening pf_sx_new_opening] in *.
      split; [exact HW|]. split; [exact Hfo|]. exists claims, A0, A3.
      fold z' in CA, CB, M2.
      assert (RA : Forall2 rep [r_sent _ _ T; s_new_commitment L; s_cur_sent _ _ T1; t_positive_sent _ _ T1; t_negative_sent _ _ T1; s_new_sent _ _ T3; g_new L]
        [gr; gso; gsc; gtp; gtn; msum (resize (s_poly yn) (4 * p_n P)) gs; ggo]).
      { repeat (constructor; [assumption|]). constructor. }
      assert (RB : Forall2 rep [c_sent _ _ T2; K] [gc; msum (resize k (4 * p_n P)) gs]).
      { repeat (constructor; [assumption|]). constructor. }
      apply (combination_iff CL (falling z') _ _ _ RA eq_refl) in CA. apply (combination_iff CL [fone; z'] _ _ _ RB eq_refl) in CB.
      split. { assert (EA : A = cl_point _ _ _ _ _ CL P0) by exact CA. rewrite EA in HA. exact HA. }
      split. { unfold CurveTop.rep. assert (EP3 : P3 = zsum CL (map vs [fone; z']) [gc; msum (resize k (4 * p_n P)) gs]).
        { change (P3 = msum [fone; z'] [gc; msum (resize k (4 * p_n P)) gs]). rewrite !(msum_cons CL), (smul_1 CL). unfold P3. change (msum [] []) with (@g0 G). rewrite gp_0_r. reflexivity. }
        rewrite EP3, <- CB. exact HB. }
      split; [exact M1|]. split; [exact M2|]. split; [exact M3|]. exact HH. }
    (* for the j-th claim *)
    assert (CJ : forall j Dj gj vj pj, j < 5 -> rep Dj gj -> (forall ip packed, run p ip packed -> exists claim, rep (po_commitment claim) gj /\ po_opening claim = vj /\ po_point claim = pj /\
        forall a, nth_error (mo_a ip) j = Some a -> claim_holds (mo_g ip) (mo_rounds ip) packed j claim a) ->
      meets CL gs (powers pj (4 * p_n P)) gj vj (extract (r := r) (answers_of j p))).
    { intros j Dj gj vj pj Hj HD HX. rewrite Pn.
      apply (extract_ok CL j p F4w (p_k P)); [congruence|unfold powers; rewrite map_length, seq_length; reflexivity|].
      apply (runs_eqs CL (p_generators P) gs 5 (p_k P) p j (mkOpening Dj vj pj false) gj HG HD Hj).
      intros ip packed HR. destruct (CR _ _ HR) as (HW & Hfo & _). split; [exact HW|]. split; [exact Hfo|].
      intros a Ha. destruct (HX _ _ HR) as (claim & Y1 & Y2 & Y3 & Y4). exact (holds_same _ _ _ _ claim (mkOpening Dj vj pj false) a gj Y1 HD Y2 Y3 (Y4 a Ha)). }
    assert (RX : exists A0 A3, rep A0 P0 /\ rep A3 P3).
    { destruct (run_ex p) as (ip & packed & HR). destruct (CR _ _ HR) as (_ & _ & claims & A0 & A3 & R0 & R3 & _). exists A0, A3. split; assumption. }
    destruct RX as (A0 & A3 & R0 & R3).
    assert (PICK : forall ip packed j gj vj pj, run p ip packed -> j < 5 ->
      nth_error [P0; gr; gc; P3; gc] j = Some gj ->
      nth_error [dot (falling z') [rx_sent _ _ T3; sx_old_sent _ _ T3; sx_cur_sent _ _ T3; tx_positive_sent _ _ T3; tx_negative_sent _ _ T3; sx_new_sent _ _ T3; gx];
          rxy_sent _ _ T3; sx_old_sent _ _ T3; sx_cur_sent _ _ T3 [+] z' [*] eval_at k y; sx_new_sent _ _ T3] j = Some vj ->
      nth_error [x; x [*] y; y_new L; y; yn] j = Some pj ->
      exists claim, rep (po_commitment claim) gj /\ po_opening claim = vj /\ po_point claim = pj /\
        forall a, nth_error (mo_a ip) j = Some a -> claim_holds (mo_g ip) (mo_rounds ip) packed j claim a).
    { intros ip packed j gj vj pj HR Hj N1 N2 N3. destruct (CR _ _ HR) as (_ & _ & claims & B0 & B3 & Q0 & Q3 & M1 & M2 & M3 & HH).
      assert (LC : length claims = 5) by (apply (f_equal (@length _)) in M3; rewrite map_length in M3; exact M3).
      destruct (nth_error claims j) as [claim|] eqn:EJ; [|apply nth_error_None in EJ; lia]. exists claim.
      rewrite <- M2 in N2. rewrite <- M3 in N3. rewrite nth_error_map, EJ in N2. rewrite nth_error_map, EJ in N3. injection N2 as N2. injection N3 as N3.
      split; [|split; [exact N2|split; [exact N3|intros a Ha; exact (HH _ _ _ EJ Ha)]]].
      assert (N4 : nth_error (map po_commitment claims) j = Some (po_commitment claim)) by (rewrite nth_error_map, EJ; reflexivity).
      rewrite M1 in N4.
      assert (FB : Forall2 rep [B0; r_sent _ _ T; c_sent _ _ T2; B3; c_sent _ _ T2] [P0; gr; gc; P3; gc]).
      { repeat (constructor; [assumption|]). constructor. }
      clear - FB N4 N1. revert j N4 N1. induction FB as [|u v l l' H _ IH]; intros [|j] N4 N1; try discriminate; cbn [nth_error] in *; [congruence|exact (IH _ N4 N1)]. }
    split; [refine (CJ 0 _ _ _ _ _ R0 _); [lia|]; intros ip packed HR; apply (PICK ip packed 0 _ _ _ HR); [lia|reflexivity..]|].
    split; [refine (CJ 1 _ _ _ _ _ Hgr _); [lia|]; intros ip packed HR; apply (PICK ip packed 1 _ _ _ HR); [lia|reflexivity..]|].
    split; [refine (CJ 3 _ _ _ _ _ R3 _); [lia|]; intros ip packed HR; apply (PICK ip packed 3 _ _ _ HR); [lia|reflexivity..]|].
    refine (CJ 4 _ _ _ _ _ Hgc _); [lia|]. intros ip packed HR. apply (PICK ip packed 4 _ _ _ HR); [lia|reflexivity..].
  Qed.

  Lemma inputs_eval ps (vals k : list F) Q y : Forall (fun p => 1 <= p <= Q) ps -> (forall q, coeff k q = input_at ps vals q) -> eval_at k y = k_value ps vals Q y.
  Proof.
    intros HR Hk.
    assert (Z : forall q, (forall p, In p ps -> p <> q) -> input_at ps vals q = fzero).
    { intro j. clear. revert vals. induction ps as [|p l IH]; intros [|v vals] H; try reflexivity. cbn [input_at].
      destruct (Nat.eqb_spec p j) as [E|E]; [destruct (H p (or_introl eq_refl) E)|]. apply IH. intros p' HI. apply H. right. exact HI. }
    rewrite Forall_forall in HR.
    rewrite (eval_bound SL k y (length k + S Q)) by lia.
    transitivity (fsum (fun i => coeff k i [*] fpow y i) (S Q)).
    - apply (fsum_pad SO); [lia|]. intros i Hi. rewrite Hk, Z; [ring|]. intros p HI. specialize (HR p HI). lia.
    - rewrite (fsum_S_l SO), Hk, Z by (intros p HI; specialize (HR p HI); lia). unfold k_value, sum_q.
      transitivity (fsum (fun i => coeff k (S i) [*] fpow y (S i)) Q); [ring|]. apply fsum_ext. intros i _. rewrite Hk. ring.
  Qed.

  Theorem sound_top (P : Params C) circuit t s_poly (k values : list F) (K : C) (L : Leftovers C) T :
    good_params P -> laid_out false circuit t -> l_gates t <= p_n P -> length (l_lcs t) < p_d P ->
    (forall y, compute_sx P circuit y = Done (Ok (s_poly y))) ->
    (forall q, coeff k q = input_at (l_inputs t) values q) -> commitment_to (p_generators P) false k K ->
    enough (p_n P) (length (l_lcs t)) T ->
    (forall pf y x yn z packed, conversed T pf y x yn z packed -> convinced P circuit K k L pf y x yn z packed) ->
    sound_for (p_generators P) t values (solve (r := r) (p_n P) s_poly k (scalars0 T)).
  Proof.
    intros HP HT HG HQ Hs Hk HK HE HC. pose proof HP as (Pk & Pd & Pn & PL & PV). destruct (valid_reps CL _ PV) as (gs & Hgs). pose proof (Forall2_len _ _ _ Hgs) as EL.
    pose proof (sem_holds P circuit K k L s_poly gs (length (l_lcs t)) T HP Hgs Hs HK HE HC) as HS.
    assert (HN : 1 <= p_n P) by (pose proof (Nat.pow_nonzero 2 (p_k P)); lia).
    assert (LK : length k <= 4 * p_n P) by (pose proof (proj1 HK); lia).
    assert (X : forall y, exists u w z, s_poly y = sx_vec (p_n P) u w z /\ length u <= p_n P /\ length w <= p_n P /\ length z <= p_n P /\ forall f, total u w z f = s_sum (l_lcs t) y f).
    { intro y. destruct (compute_sx_eq CL P circuit t y HT) as (u & w & z & E & L1 & L2 & L3 & ET). rewrite Hs in E. injection E as E. exists u, w, z. rewrite L1, L2, L3. auto. }
    assert (Y : forall y, eval_at k y = k_value (l_inputs t) values (length (l_lcs t)) y).
    { intro y. apply inputs_eval; [|exact Hk]. apply (lo_range t (lay_ok_run _ _ _ _ _ (ok_layout0 false) HT)). }
    pose proof (solve_right CL (p_n P) s_poly k gs HN ltac:(congruence) LK (l_lcs t) (l_inputs t) values (l_gates t) X Y ltac:(lia) (scalars0 T) HS HG) as H.
    unfold sound_for. destruct (solve _ _ _ _) as [a b c|z]; [exact H|]. destruct H as (H1 & H2 & H3).
    split; [congruence|]. split; [exact H2|]. apply (combination_iff CL z (p_generators P) gs _ Hgs); [congruence|].
    unfold ExtractP.msum in H3. rewrite H3. symmetry. apply (cl_infinity _ _ _ _ _ CL).
  Qed.
End SoundTop.
