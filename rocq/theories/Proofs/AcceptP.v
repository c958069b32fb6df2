(** What [RecursiveProof::verify] checks. *)
From Coq Require Import String List Bool Arith ZArith Lia.
From Verif Require Import Lib.AbGroup Lib.Abel Model.FieldTrait Model.FieldInst Model.Circuits Model.Num Model.Boolean Model.Curve Model.Threads Model.Util Model.Rescue Model.Params
  Model.Opening Model.Proofs Model.Recursion Model.RecursiveProof
  Spec.FieldLaws Spec.CircuitSpec Spec.BoolSpec Spec.SystemSpec Spec.CurveSpec Spec.CurveLaws Spec.UtilSpec Spec.ProofSpec Spec.VerifySpec Spec.UniformSpec Spec.ChainSpec Spec.AcceptSpec
  Proofs.FieldGen Proofs.FpFq Proofs.CurveInst Proofs.CurveTop Proofs.MultiexpP Proofs.OpeningP Proofs.OpeningTop Proofs.ProverLemmas Proofs.ProverP Proofs.ProverTop Proofs.DeferredTop Proofs.VerifyTop Proofs.ParamsP Proofs.ChainP.
Import ListNotations.
Open Scope nat_scope. Open Scope list_scope.
Local Notation length := List.length.

Section One.
  Context {C : Curve} {q vb r vs} (CL : CurveLaws C q vb r vs).
  Notation rep := (CurveTop.rep CL).
  Notation F := (Scalar C).
  Let SL := cl_scalar _ _ _ _ _ CL.
  Let SO := fl_ops _ _ _ SL.
  Add Ring Fr : (fring SO).

  Lemma same_inf (X Y : C) g : rep X g -> rep Y g -> represents X infinity -> represents Y infinity.
  Proof.
    intros HX HY H. destruct (rep_ex CL X _ H) as (h & E & Hh). rewrite E. rewrite (rep_fun CL X _ _ Hh HX). exact HY.
  Qed.
  Lemma same_eq (X Y Z : C) g : rep X g -> rep Y g -> same_point X Z -> same_point Y Z.
  Proof.
    intros HX HY (A & H & HZ). destruct (rep_ex CL X _ H) as (h & E & Hh). exists A. split; [|exact HZ]. rewrite E, (rep_fun CL X _ _ Hh HX). exact HY.
  Qed.

  Section Leftovers.
    Variable P : Params C.
    Hypothesis HP : good_params P.
    Hypothesis Hn : 1 <= p_n P.
    Lemma leftovers_decided M L circuit t : machine_ok M -> laid_out false circuit t -> valid (s_new_commitment L) -> valid (g_new L) ->
      checkable_leftovers P L -> exists b, leftovers_verify M L P circuit = Done (Ok b) /\ (b = true <-> true_leftovers P circuit L).
    Proof.
      intros HM HT V1 V2 (H1 & H2). destruct (good_reps CL P HP) as (gs & HG).
      destruct (leftovers_char CL P HP gs HG M L circuit t HM Hn HT V1 V2) as (_ & _ & H). destruct (H H1 H2) as (g & sx & D & b & A1 & A2 & A3 & A4 & A5).
      exists b. split; [exact A4|]. rewrite A5. split.
      - intros (B1 & B2). exists g, sx, D. auto.
      - intros (g' & sx' & D' & B1 & B2 & B3 & B4 & B5). assert (sx' = sx) as -> by congruence.
        apply (folds_iff CL P HP gs HG _ _ H1) in A1. destruct A1 as (cs & cis & I1 & I2 & I3).
        apply (folds_iff CL P HP gs HG _ _ H1) in B1. destruct B1 as (cs' & cis' & J1 & J2 & J3).
        rewrite (rooted_fun _ _ _ J1 I1) in *.
        assert (E : prod_ cis' = prod_ cis).
        { pose proof (inverses_prod SL _ _ I2) as X1. pose proof (inverses_prod SL _ _ J2) as X2.
          transitivity (fmul (prod_ cis') (fmul (prod_ cs) (prod_ cis))); [rewrite X1; ring|]. transitivity (fmul (fmul (prod_ cs) (prod_ cis')) (prod_ cis)); [ring|]. rewrite X2. ring. }
        rewrite E in J3. apply (lcom_iff CL P HP gs HG) in A3, B3.
        split; [destruct B4 as [B4|B4]; [left; exact (same_inf _ _ _ J3 I3 B4)|right; exact (same_eq _ _ _ _ J3 I3 B4)]|].
        destruct B5 as [B5|B5]; [left; exact (same_inf _ _ _ (proj2 B3) (proj2 A3) B5)|right; exact (same_eq _ _ _ _ (proj2 B3) (proj2 A3) B5)].
    Qed.
    Lemma leftovers_formed M L circuit t : machine_ok M -> laid_out false circuit t -> valid (s_new_commitment L) -> valid (g_new L) ->
      leftovers_verify M L P circuit <> Panicked -> checkable_leftovers P L.
    Proof.
      intros HM HT V1 V2 H. destruct (good_reps CL P HP) as (gs & HG).
      destruct (leftovers_char CL P HP gs HG M L circuit t HM Hn HT V1 V2) as (H1 & H2 & _). split.
      - destruct (Nat.eq_dec (length (challenges_sq_packed_new L)) (p_k P)) as [E|E]; [exact E|]. destruct (H (H1 E)).
      - apply Forall_forall. intros pk Hpk E. exact (H (H2 pk Hpk E)).
    Qed.
  End Leftovers.

  Lemma input_commitment_ok (P : Params C) bits : good_params P -> S (S (length bits)) <= length (p_generators P) ->
    exists K1 gens K, nth_error (p_generators P) 1 = Some K1 /\ slice_from (p_generators P) 2 = Some gens /\ bit_inputs K1 gens bits = Some (K, map of_bit bits) /\
      valid K /\ commitment_to (p_generators P) false (fzero :: fone :: map of_bit bits) K.
  Proof.
    intros HP HL. destruct (good_reps CL P HP) as (gs & HG). pose proof (commitment_rep CL (p_generators P) gs false (fzero :: fone :: map of_bit bits : list F)) as HC.
    unfold slice_from. revert HC HL HG. destruct (p_generators P) as [|X0 [|X1 gens]]; cbn [length]; try lia. intros HC HL HG.
    inversion HG as [|? a ? gs0 H0 HG0]; subst. inversion HG0 as [|? b ? gs' H1 HG']; subst.
    destruct (bit_inputs_rep CL bits gens gs' X1 b HG' ltac:(lia) H1) as (K & EK & HK).
    exists X1, gens, K. split; [reflexivity|]. split; [reflexivity|]. split; [exact EK|].
    split; [eexists; exact HK|]. apply (HC K HG). cbn [length]. rewrite map_length. split; [exact HL|]. unfold position.
    replace (S (S (length bits))) with (length (map vs (fzero :: fone :: map of_bit bits : list F))) by (cbn [map length]; rewrite !map_length; reflexivity).
    rewrite (zsum_first CL). cbn [map MultiexpP.zsum]. rewrite (ol_zero _ _ _ SO), (ol_one _ _ _ SO), zmul_0, zmul_1.
    match goal with |- rep _ (gp g0 (gp b ?s)) => replace (gp g0 (gp b s)) with (gp b s) by abel end. exact HK.
  Qed.

  (** What [Proof::verify] returns can be checked *)
  Lemma challenge_nz (t : Rescue (Base C)) (c : F) t' : challenge_after t c t' -> c <> fzero.
  Proof.
    intros (e & _ & E) ->. pose proof (Z.mod_pos_bound (le_val (f_to_bytes e)) (2 ^ 127) ltac:(reflexivity)) as H.
    rewrite (proj2 (proj2 (fl_to_bytes _ _ _ SL fzero))), (ol_zero _ _ _ SO) in E. lia.
  Qed.
  Lemma rounds_rooted m (t : Rescue (Base C)) rounds packed forks t' : rounds_run m t rounds packed forks t' ->
    length packed = length rounds /\ rooted_all packed.
  Proof. induction 1 as [|t round ms n pk t1 rounds pks forks t' _ _ _ _ HR _ [IH1 IH2]]; [split; [reflexivity|constructor]|]. split; [cbn [length]; congruence|constructor; [exact HR|exact IH2]]. Qed.
  Lemma verified_checkable K k k0 pf L b L' D forks (P : Params C) : p_k P = k0 -> well_formed_proof k0 pf L -> verified K k pf L b L' D forks ->
    checkable_deferred D /\ checkable_leftovers P L' /\ valid (s_new_commitment L') /\ valid (g_new L').
  Proof.
    intros Ek (HV & (Hk & HR & _ & Vg & _) & Hne & Hroots) (gx & y & x & yn & z & t & t' & claims & H). cbv zeta in H.
    destruct H as (_ & (t1 & t2 & t3 & C1 & C2 & C3 & _) & _ & HRn & _ & ES & EY & EG & Ex & _ & Ey & _ & _ & _ & _ & _ & _ & _ & EO & _ & EN & _).
    destruct (rounds_rooted _ _ _ _ _ _ HRn) as (RL & RR).
    repeat match goal with H : Forall valid (_ :: _) |- _ => apply Forall_cons_iff in H; destruct H as [? H] end.
    split; [|split; [split; [congruence|exact RR]|rewrite ES, EG; auto]].
    unfold checkable_deferred. rewrite Ex, Ey, EO, EN. split; [exact (challenge_nz _ _ _ C2)|]. split; [exact (challenge_nz _ _ _ C1)|]. split; [exact Hne|].
    split; [intro E; rewrite E in RL; cbn [length] in RL; lia|]. apply Forall_app. split; [exact Hroots|exact RR].
  Qed.
End One.

Section Deferred.
  Context {F : Field} {p : Z} {v : F -> Z} (FL : FieldLaws F p v).
  Let OL := fl_ops _ _ _ FL.
  Add Ring Fr2 : (fring OL).
  Lemma inverse_ex (x : F) : x <> fzero -> exists xi, fmul x xi = fone.
  Proof. intro H. destruct (finvert_some FL x H) as (i & _ & E). exists i. exact E. Qed.
  Lemma inverse_unique (x a b : F) : fmul x a = fone -> fmul x b = fone -> a = b.
  Proof. intros H1 H2. transitivity (fmul a (fmul x b)); [rewrite H2; ring|]. transitivity (fmul (fmul x a) b); [ring|]. rewrite H1. ring. Qed.
  Lemma deferred_decided (D : Deferred F) k : 2 <= k <= 64 -> checkable_deferred D -> exists b, deferred_verify D k = Some b /\ (b = true <-> true_deferred k D).
  Proof.
    intros Hk (H1 & H2 & H3 & H4 & H5). destruct (inverse_ex _ H1) as (xi & Ex). destruct (inverse_ex _ H2) as (yi & Ey).
    destruct (verify_exact FL D k xi yi Hk Ex Ey H3 H4 H5) as (b & E & HB). exists b. split; [exact E|]. rewrite HB. unfold true_deferred. split.
    - intros (A & B). split; [exists xi, yi; auto|exact B].
    - intros ((xi' & yi' & X1 & X2 & A) & B). rewrite (inverse_unique _ _ _ X1 Ex), (inverse_unique _ _ _ X2 Ey) in A. auto.
  Qed.
  Lemma deferred_formed (D : Deferred F) k : deferred_verify D k <> None -> checkable_deferred D.
  Proof.
    intro H. assert (N : ~ _) by exact (fun X => H (proj2 (verify_panics FL D k) X)).
    split; [intro E; apply N; auto|]. split; [intro E; apply N; auto|]. split; [intro E; apply N; auto|]. split; [intro E; apply N; tauto|].
    apply Forall_forall. intros pk Hpk E. apply N. do 5 right. exists pk. auto.
  Qed.
End Deferred.

(** *** The whole verifier *)
Section Both.
  Context {E1 E2 : Curve} {q1 vb1 r1 vs1} (CL1 : CurveLaws E1 q1 vb1 r1 vs1) {q2 vb2 r2 vs2} (CL2 : CurveLaws E2 q2 vb2 r2 vs2).
  Variable cy : Cycle E1 E2.
  Variable P1 : Params E1. Variable P2 : Params E2. Variable c : BothCircuits E1 E2.
  Hypothesis HP1 : good_params P1. Hypothesis HP2 : good_params P2.
  Hypothesis Hk1 : 2 <= p_k P1. Hypothesis Hk2 : 2 <= p_k P2.
  Variable self : RecursiveProof E1 E2.
  Let c1 := step_circuit cy P2 c (rp_payload self).
  Let c2 := step_circuit (RecursiveProof.swap cy) P1 (swap_circuits c) (rp_payload self).
  Variables (t1 : layout (Scalar E1)) (t2 : layout (Scalar E2)).
  Hypothesis HT1 : laid_out false c1 t1. Hypothesis HT2 : laid_out false c2 t2.
  Hypothesis Hin : length (proof_bits self) = length (l_inputs t1) - 1.
  Hypothesis Hq : length (l_lcs t1) < p_d P1.
  Hypothesis Hg : S (S (length (proof_bits self))) <= p_d P1.
  Hypothesis HW : well_formed_recursive P1 self.
  Variable M : Machine. Hypothesis HM : machine_ok M.

  Lemma n_pos {C} (P : Params C) : good_params P -> 2 <= p_k P -> 1 <= p_n P.
  Proof. intros (_ & _ & E & _) H. destruct (p_n P); [|lia]. pose proof (Nat.pow_nonzero 2 (p_k P) ltac:(discriminate)). lia. Qed.
  Lemma k_small {C} (P : Params C) : good_params P -> 2 <= p_k P -> 2 <= p_k P <= 64.
  Proof. intros (H & _) H'. lia. Qed.
  Theorem verify_char : exists K k, input_commitment P1 self K /\ input_polynomial t1 self k /\
    ((verify cy M self P1 P2 c = Panicked /\ exists tr, reached tr /\ no_challenge (C := E1) 256 tr) \/
     exists good L' D forks, verified K k (rp_proof self) (rp_oldproof1 self) good L' D forks /\
       (verify cy M self P1 P2 c <> Panicked -> checkable_leftovers P2 (rp_oldproof2 self) /\ checkable_deferred (rp_deferred self)) /\
       (checkable_leftovers P2 (rp_oldproof2 self) -> checkable_deferred (rp_deferred self) ->
        exists b, verify cy M self P1 P2 c = Done (Ok b) /\ (b = true <-> all_checks cy P1 P2 c self good L' D))).
  Proof.
    destruct HW as (HW1 & V1 & V2). pose proof HP1 as (_ & Pd & _ & Pg & _).
    destruct (input_commitment_ok CL1 P1 (proof_bits self) HP1 ltac:(rewrite Pg, <- Pd; exact Hg)) as (K1 & gens & K & EK1 & EG & EB & VK & HK).
    destruct (good_reps CL1 P1 HP1) as (gs & HG).
    destruct (proof_verify_spec CL1 P1 gs HP1 HG M c1 t1 (map of_bit (proof_bits self)) (rp_proof self) (rp_oldproof1 self) (Some K) HM HT1 ltac:(rewrite map_length; exact Hin) Hq HW1 VK)
      as (k & Hk & HX).
    exists K, k. split; [exact HK|]. split; [exact Hk|].

    assert (EI : verify_inner cy M self P1 P2 c =
      out_try (proof_verify M (rp_proof self) (rp_oldproof1 self) P1 c1 (map of_bit (proof_bits self)) (Some K)) (fun '(worked, leftovers, deferred, forkvalues) =>
      out_try (leftovers_verify M (rp_oldproof2 self) P2 c2) (fun worked2 =>
      Done (Ok (worked && worked2, deferred, leftovers, rp_oldproof2 self, forkvalues))))).
    { unfold verify_inner. cbv zeta. rewrite EK1, EG. cbn [out_opt out_bind].
      change (bytes_bits _) with (proof_bits self). rewrite EB. reflexivity. }
    destruct HX as [(EV & HN)|(K' & good & L' & D & forks & EV & -> & HVer & _)].
    - left. split; [|exact HN]. unfold verify. cbv zeta. rewrite EI, EV. reflexivity.
    - right. exists good, L', D, forks. split; [exact HVer|].
      destruct (verified_checkable CL1 K k _ _ _ _ _ _ _ P1 eq_refl HW1 HVer) as (CD & CLf & V3 & V4).
      assert (EV2 : verify cy M self P1 P2 c =
        out_try (leftovers_verify M (rp_oldproof2 self) P2 c2) (fun worked2 =>
        out_bind (out_opt (deferred_verify (rp_deferred self) (p_k P2))) (fun w1 =>
        out_bind (out_opt (deferred_verify D (p_k P1))) (fun w2 =>
        out_try (leftovers_verify M L' P1 c1) (fun w3 =>
        out_try (leftovers_verify M (rp_oldproof2 self) P2 c2) (fun w4 =>
        Done (Ok (good && worked2 && w1 && w2 && w3 && w4)))))))).
      { unfold verify. cbv zeta. rewrite EI, EV. unfold c1, c2, step_circuit. cbn [swap_circuits on_scalar1]. cbn [out_try].
        match goal with |- context [leftovers_verify M (rp_oldproof2 self) P2 ?c] => destruct (leftovers_verify M (rp_oldproof2 self) P2 c) as [[]| |] eqn:EL end; try reflexivity.
        cbn [out_try out_bind]. rewrite EL. reflexivity. }
      rewrite EV2. split.
      + intro N. assert (H1 : checkable_leftovers P2 (rp_oldproof2 self)).
        { apply (leftovers_formed CL2 P2 HP2 (n_pos P2 HP2 Hk2) M _ c2 t2 HM HT2 V1 V2). intro E. rewrite E in N. exact (N eq_refl). }
        split; [exact H1|]. destruct (leftovers_decided CL2 P2 HP2 (n_pos P2 HP2 Hk2) M _ c2 t2 HM HT2 V1 V2 H1) as (b2 & EE2 & _).
        apply (deferred_formed (cl_scalar _ _ _ _ _ CL2) _ (p_k P2)). intro E. rewrite E, EE2 in N. exact (N eq_refl).
      + intros H1 H2.
        destruct (leftovers_decided CL2 P2 HP2 (n_pos P2 HP2 Hk2) M _ c2 t2 HM HT2 V1 V2 H1) as (b2 & EE2 & B2).
        destruct (leftovers_decided CL1 P1 HP1 (n_pos P1 HP1 Hk1) M _ c1 t1 HM HT1 V3 V4 CLf) as (b1 & EE1 & B1).
        destruct (deferred_decided (cl_scalar _ _ _ _ _ CL2) _ (p_k P2) (k_small P2 HP2 Hk2) H2) as (d2 & E3 & B3).
        destruct (deferred_decided (cl_scalar _ _ _ _ _ CL1) _ (p_k P1) (k_small P1 HP1 Hk1) CD) as (d1 & E4 & B4).
        rewrite EE2, EE1, E3, E4. cbn [out_try out_opt out_bind]. eexists. split; [reflexivity|].
        rewrite !andb_true_iff, B2, B1, B3, B4. unfold all_checks. tauto.
  Qed.
End Both.
