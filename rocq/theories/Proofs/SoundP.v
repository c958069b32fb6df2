(** From the answers of a rewound prover to the values of the wires. *)
From Coq Require Import ZArith List Bool Arith Lia Ring Field.
From Verif Require Import Lib.AbGroup Lib.Abel Model.FieldTrait Model.Circuits Model.Curve Model.Util Model.Params Model.Opening Model.Proofs
  Spec.FieldLaws Spec.CircuitSpec Spec.CurveSpec Spec.CurveLaws Spec.UtilSpec Spec.SystemSpec Spec.ProofSpec Spec.VerifySpec Spec.RecursiveCircuitSpec Spec.ExtractSpec Spec.SoundnessSpec
  Proofs.FieldGen Proofs.SumP Proofs.PolyMulP Proofs.ParamsP Proofs.CurveTop Proofs.MultiexpP Proofs.IdentityP Proofs.OpeningTop Proofs.ExtractP Proofs.SoundAlgebraP Proofs.SoundLinearP.
Import ListNotations.
Open Scope nat_scope.
Open Scope list_scope.

Section Sound.
  Context {C : Curve} {q vb r vs} (CL : CurveLaws C q vb r vs).
  Notation G := (cl_group _ _ _ _ _ CL).
  Notation F := (Scalar C).
  Let SL := cl_scalar _ _ _ _ _ CL.
  Let SO := fl_ops _ _ _ SL.
  Add Field Fs : (ffield SO).
  Infix "[+]" := fadd (at level 50, left associativity).
  Infix "[-]" := fsub (at level 50, left associativity).
  Infix "[*]" := fmul (at level 40, left associativity).
  Notation "a [/] b" := (fdiv (p := r) a b) (at level 40, left associativity).
  Notation msum := (msum CL).
  Notation smul := (smul CL).
  Notation extract := (extract (C := C) (r := r)).
  Notation tree3 := (stage3 C unit (nat -> answers C)).
  Notation tree2 := (stage2 C unit (nat -> answers C)).
  Notation tree1 := (stage1 C unit (nat -> answers C)).
  Notation tree0 := (stage0 C unit (nat -> answers C)).

  (** *** The extractor *)
  Section Extractor.
    Variables (n : nat) (s_poly : F -> list F) (k : list F).
    Definition coefficients (e : extracted C) : list F := match e with Coefficients v => v | Relation _ => [] end.
    Definition relations (e : extracted C) : list (list F) := match e with Coefficients _ => [] | Relation z => [z] end.
    Definition co (zA : F * (nat -> answers C)) (j : nat) : list F := coefficients (extract (snd zA j)).
    Definition zof (zA : F * (nat -> answers C)) : F := get_challenge_scalar (fst zA).
    Definition diff (u v : list F) : list F := vadd u (vscale (fneg fone) v).
    Definition separated (S3 : tree3) (i : nat) : list F :=
      lincomb (4 * n) (weight (r := r) zof (with_z _ _ S3) i) (fun zA => co zA 0) (with_z _ _ S3).
    Definition rels3 (S3 : tree3) : list (list F) :=
      flat_map (fun zA => flat_map (fun j => relations (extract (snd zA j))) [0; 1; 3; 4]) (with_z _ _ S3).
    Definition rels2 (S2 : tree2) : list (list F) := flat_map (fun e => rels3 (snd e)) (with_y_new _ _ S2).
    Definition rels1 (S1 : tree1) : list (list F) := flat_map (fun e => rels2 (snd e)) (with_x _ _ S1).
    Definition rels0 (S0 : tree0) : list (list F) := flat_map (fun e => rels1 (snd e)) (with_y _ _ S0).
    (** the first opening of each commitment *)
    Definition first3 (j : nat) (S3 : tree3) : list F := match with_z _ _ S3 with zA :: _ => co zA j | [] => [] end.
    Definition first2 (f : tree3 -> list F) (S2 : tree2) : list F := match with_y_new _ _ S2 with e :: _ => f (snd e) | [] => [] end.
    Definition first1 (f : tree2 -> list F) (S1 : tree1) : list F := match with_x _ _ S1 with e :: _ => f (snd e) | [] => [] end.
    Definition first0 (f : tree1 -> list F) (S0 : tree0) : list F := match with_y _ _ S0 with e :: _ => f (snd e) | [] => [] end.
    Definition r_of (S0 : tree0) : list F := first0 (first1 (first2 (first3 1))) S0.
    Definition t_of (i : nat) (S1 : tree1) : list F := first1 (first2 (fun S3 => separated S3 i)) S1.
    Definition c_of (S2 : tree2) : list F := first2 (first3 4) S2.
    (** and what the others differ from it *)
    Definition cands3 (R Tp Tn Cc : list F) (yn : F) (S3 : tree3) : list (list F) :=
      [diff (separated S3 0) R; diff (separated S3 3) Tp; diff (separated S3 4) Tn; diff (separated S3 5) (resize (s_poly yn) (4 * n))] ++
      flat_map (fun zA => [diff (co zA 1) R; diff (co zA 4) Cc; diff (co zA 3) (vadd Cc (vscale (zof zA) (resize k (4 * n))))]) (with_z _ _ S3).
    Definition cands2 (R Tp Tn : list F) (S2 : tree2) : list (list F) := flat_map (fun e => cands3 R Tp Tn (c_of S2) (fst e) (snd e)) (with_y_new _ _ S2).
    Definition cands1 (R : list F) (S1 : tree1) : list (list F) := flat_map (fun e => cands2 R (t_of 3 S1) (t_of 4 S1) (snd e)) (with_x _ _ S1).
    Definition cands0 (S0 : tree0) : list (list F) := flat_map (fun e => cands1 (r_of S0) (snd e)) (with_y _ _ S0).
    Definition solve (S0 : tree0) : found C :=
      match rels0 S0 with
      | z :: _ => Related z
      | [] => match find (fun z => negb (is_zero_vec z)) (cands0 S0) with
              | Some z => Related z
              | None => let R := r_of S0 in Witness (skipn (3 * n) R) (rev (firstn n (skipn (2 * n - 1) R))) (rev (firstn n (skipn (n - 1) R)))
              end
      end.
  End Extractor.

  Variables (n : nat) (s_poly : F -> list F) (k : list F) (gs : list G).
  Hypothesis (Hn : 1 <= n) (Hgs : length gs = 4 * n) (Hk : length k <= 4 * n).
  Let d := 4 * n.
  Let gK := msum (resize k d) gs.

  (** *** What the answers have to do with the points *)
  Definition equation3 (y x : F) (S3 : tree3) : Prop := exists xi yi, x [*] xi = fone /\ y [*] yi = fone /\
    (rx_sent _ _ S3 [*] fpow xi (3 * n - 1)) [*]
      (rxy_sent _ _ S3 [*] fpow (xi [*] yi) (3 * n - 1) [+]
        (sx_cur_sent _ _ S3 [*] fpow xi n [*] fpow y n [-] fpow x n [*] sum_q (fun i => fpow (x [*] y) i [+] fpow (x [*] yi) i) n))
    [-] eval_at k y [*] fpow y n = tx_positive_sent _ _ S3 [*] x [+] tx_negative_sent _ _ S3 [*] fpow xi (4 * n).
  Definition sem3 (gr gtp gtn gc : G) (y x yn : F) (S3 : tree3) : Prop :=
    NoDup (map zof (with_z _ _ S3)) /\ length (with_z _ _ S3) = 7 /\ equation3 y x S3 /\
    exists gso gsc ggo gx, forall zA, In zA (with_z _ _ S3) ->
      meets CL gs (powers x d) (msum (falling (zof zA)) [gr; gso; gsc; gtp; gtn; msum (resize (s_poly yn) d) gs; ggo])
        (dot (falling (zof zA)) [rx_sent _ _ S3; sx_old_sent _ _ S3; sx_cur_sent _ _ S3; tx_positive_sent _ _ S3; tx_negative_sent _ _ S3; sx_new_sent _ _ S3; gx])
        (extract (snd zA 0)) /\
      meets CL gs (powers (x [*] y) d) gr (rxy_sent _ _ S3) (extract (snd zA 1)) /\
      meets CL gs (powers y d) (gp gc (smul (zof zA) gK)) (sx_cur_sent _ _ S3 [+] zof zA [*] eval_at k y) (extract (snd zA 3)) /\
      meets CL gs (powers yn d) gc (sx_new_sent _ _ S3) (extract (snd zA 4)).
  Definition sem2 (gr gtp gtn : G) (y x : F) (S2 : tree2) : Prop :=
    NoDup (map fst (with_y_new _ _ S2)) /\ d <= length (with_y_new _ _ S2) /\ exists gc, forall yn S3, In (yn, S3) (with_y_new _ _ S2) -> sem3 gr gtp gtn gc y x yn S3.
  Definition sem1 (gr : G) (y : F) (S1 : tree1) : Prop :=
    NoDup (map fst (with_x _ _ S1)) /\ 10 * n - 1 <= length (with_x _ _ S1) /\ exists gtp gtn, forall x S2, In (x, S2) (with_x _ _ S1) -> sem2 gr gtp gtn y x S2.
  Definition sem0 (Q : nat) (S0 : tree0) : Prop :=
    NoDup (map fst (with_y _ _ S0)) /\ 2 * n + Q < length (with_y _ _ S0) /\ exists gr, forall y S1, In (y, S1) (with_y _ _ S0) -> sem1 gr y S1.
  Definition good (g : G) (v : list F) : Prop := length v = d /\ msum v gs = g.
  Definition related (z : list F) : Prop := length z = d /\ ~ Forall (eq fzero) z /\ msum z gs = g0.

  Lemma diff_good g u v : good g u -> good g v -> length (diff u v) = d /\ msum (diff u v) gs = g0.
  Proof.
    intros (H1 & H2) (H3 & H4). unfold diff. split; [rewrite vadd_length; rewrite ?vscale_length; congruence|].
    rewrite (msum_add CL) by (rewrite vscale_length; congruence). rewrite (msum_scale CL), H2, H4.
    transitivity (gp (smul fone g) (smul (fneg fone) g)); [rewrite (smul_1 CL); reflexivity|]. rewrite <- (smul_add CL).
    match goal with |- smul ?x _ = _ => replace x with (fzero : F) by ring end. apply (smul_0 CL).
  Qed.
  Lemma diff_eq u v : length u = length v -> Forall (eq fzero) (diff u v) -> u = v.
  Proof.
    intros H Z. apply (coeff_ext (C := C) u v H). intros i Hi.
    assert (X : coeff (diff u v) i = fzero).
    { symmetry. apply (proj1 (Forall_forall _ _) Z). apply nth_In. unfold diff. rewrite vadd_length by (rewrite vscale_length; exact H). exact Hi. }
    unfold diff in X. rewrite (vadd_coeff CL), (vscale_coeff CL) in X by (rewrite vscale_length; exact H).
    transitivity (coeff u i [+] fneg fone [*] coeff v i [+] coeff v i); [ring|]. rewrite X. ring.
  Qed.

  Lemma rels_good Q S0 z : sem0 Q S0 -> In z (rels0 S0) -> related z.
  Proof.
    intros (_ & _ & gr & H) HI. unfold rels0 in HI. apply in_flat_map in HI. destruct HI as ([y S1] & H1 & HI). destruct (H _ _ H1) as (_ & _ & gtp & gtn & H').
    unfold rels1 in HI. cbn [snd] in HI. apply in_flat_map in HI. destruct HI as ([x S2] & H2 & HI). destruct (H' _ _ H2) as (_ & _ & gc & H'').
    unfold rels2 in HI. cbn [snd] in HI. apply in_flat_map in HI. destruct HI as ([yn S3] & H3 & HI). destruct (H'' _ _ H3) as (_ & _ & _ & gso & gsc & ggo & gx & HS).
    unfold rels3 in HI. cbn [snd] in HI. apply in_flat_map in HI. destruct HI as (zA & H4 & HI). destruct (HS _ H4) as (M0 & M1 & M3 & M4).
    apply in_flat_map in HI. destruct HI as (j & Hj & HI). unfold related, d. rewrite <- Hgs.
    destruct Hj as [<-|[<-|[<-|[<-|[]]]]].
    - destruct (extract (snd zA 0)); [destruct HI|destruct HI as [<-|[]]]. exact M0.
    - destruct (extract (snd zA 1)); [destruct HI|destruct HI as [<-|[]]]. exact M1.
    - destruct (extract (snd zA 3)); [destruct HI|destruct HI as [<-|[]]]. exact M3.
    - destruct (extract (snd zA 4)); [destruct HI|destruct HI as [<-|[]]]. exact M4.
  Qed.
  Lemma flat_map_nil {A B} (f : A -> list B) l x : flat_map f l = [] -> In x l -> f x = [].
  Proof.
    induction l as [|a l IH]; intros H HI; [destruct HI|]. cbn [flat_map] in H. apply app_eq_nil in H. destruct H as [H1 H2].
    destruct HI as [->|HI]; [exact H1|exact (IH H2 HI)].
  Qed.

  (** *** When there is no relation among the answers *)
  Lemma no_rels3 gr gtp gtn gc y x yn S3 : sem3 gr gtp gtn gc y x yn S3 -> rels3 S3 = [] ->
    (forall zA, In zA (with_z _ _ S3) ->
      (good gr (co zA 1) /\ eval_at (co zA 1) (x [*] y) = rxy_sent _ _ S3) /\
      (good (gp gc (smul (zof zA) gK)) (co zA 3) /\ eval_at (co zA 3) y = sx_cur_sent _ _ S3 [+] zof zA [*] eval_at k y) /\
      (good gc (co zA 4) /\ eval_at (co zA 4) yn = sx_new_sent _ _ S3)) /\
    (good gr (separated n S3 0) /\ eval_at (separated n S3 0) x = rx_sent _ _ S3) /\
    (good gtp (separated n S3 3) /\ eval_at (separated n S3 3) x = tx_positive_sent _ _ S3) /\
    (good gtn (separated n S3 4) /\ eval_at (separated n S3 4) x = tx_negative_sent _ _ S3) /\
    (good (msum (resize (s_poly yn) d) gs) (separated n S3 5) /\ eval_at (separated n S3 5) x = sx_new_sent _ _ S3).
  Proof.
    intros (HD & HL & _ & gso & gsc & ggo & gx & HS) HR.
    assert (X : forall zA j pt g v, In zA (with_z _ _ S3) -> In j [0; 1; 3; 4] -> meets CL gs (powers pt d) g v (extract (snd zA j)) ->
      good g (co zA j) /\ dot (co zA j) (powers pt d) = v).
    { intros zA j pt g v HI Hj HM. pose proof (flat_map_nil _ _ _ (flat_map_nil _ _ _ HR HI) Hj) as E. cbv beta in E.
      unfold co. destruct (extract (snd zA j)) as [a|z]; [|discriminate E]. cbn [coefficients]. destruct HM as (M1 & M2 & M3).
      split; [split; [unfold d; congruence|exact M2]|exact M3]. }
    assert (DE : forall g v pt, good g v -> dot v (powers pt d) = eval_at v pt).
    { intros g v pt (HG & _). rewrite <- HG. apply dot_powers. }
    split.
    { intros zA HI. destruct (HS zA HI) as (_ & M1 & M3 & M4).
      apply X in M1; [|exact HI|cbn; tauto]. apply X in M3; [|exact HI|cbn; tauto]. apply X in M4; [|exact HI|cbn; tauto].
      destruct M1 as (A1 & A2). destruct M3 as (A3 & A4). destruct M4 as (A5 & A6).
      rewrite (DE _ _ _ A1) in A2. rewrite (DE _ _ _ A3) in A4. rewrite (DE _ _ _ A5) in A6. repeat split; assumption || apply A1 || apply A3 || apply A5. }
    set (cs := [gr; gso; gsc; gtp; gtn; msum (resize (s_poly yn) d) gs; ggo]) in *.
    set (os := [rx_sent _ _ S3; sx_old_sent _ _ S3; sx_cur_sent _ _ S3; tx_positive_sent _ _ S3; tx_negative_sent _ _ S3; sx_new_sent _ _ S3; gx]) in *.
    assert (Y : forall i, i < 7 -> good (nth i cs g0) (separated n S3 i) /\ eval_at (separated n S3 i) x = nth i os fzero).
    { intros i Hi.
      assert (LG : forall zA, In zA (with_z _ _ S3) -> length (co zA 0) = d /\ length (falling (zof zA)) = 7 /\ msum (co zA 0) gs = msum (falling (zof zA)) cs).
      { intros zA HI. destruct (HS zA HI) as (M0 & _). apply X in M0; [|exact HI|cbn; tauto]. destruct M0 as ((A1 & A2) & A3). split; [exact A1|]. split; [reflexivity|exact A2]. }
      assert (LD : forall zA, In zA (with_z _ _ S3) -> length (co zA 0) = d /\ length (falling (zof zA)) = 7 /\ dot (co zA 0) (powers x d) = dot (falling (zof zA)) os).
      { intros zA HI. destruct (HS zA HI) as (M0 & _). apply X in M0; [|exact HI|cbn; tauto]. destruct M0 as ((A1 & A2) & A3). split; [exact A1|]. split; [reflexivity|exact A3]. }
      pose proof (lincomb_msum CL d 7 (weight (r := r) zof (with_z _ _ S3) i) (fun zA => co zA 0) (fun zA => falling (zof zA)) (with_z _ _ S3) gs cs LG) as EM.
      pose proof (lincomb_dot CL d 7 (weight (r := r) zof (with_z _ _ S3) i) (fun zA => co zA 0) (fun zA => falling (zof zA)) (with_z _ _ S3) (powers x d) os LD) as ED.
      rewrite (separate CL zof (with_z _ _ S3) HD i HL Hi) in EM, ED.
      fold (separated n S3 i) in EM, ED.
      assert (GL : length (separated n S3 i) = d) by (apply (lincomb_length (C := C)); intros zA HI; apply (LG zA HI)).
      assert (EU : msum (unit_vec (C := C) 7 i) cs = nth i cs g0).
      { clear - Hi. unfold cs. do 7 (destruct i as [|i]; [unfold unit_vec; cbn [seq map Nat.eqb]; rewrite !(msum_cons CL), !(smul_0 CL), !(smul_1 CL); cbn [nth]; change (msum [] []) with (@g0 G); abel|]). lia. }
      assert (EV : dot (unit_vec (C := C) 7 i) os = nth i os fzero).
      { clear - Hi SO. unfold os. do 7 (destruct i as [|i]; [unfold unit_vec; cbn [seq map Nat.eqb]; rewrite !(IdentityP.dot_cons SO), IdentityP.dot_nil; cbn [nth]; ring|]). lia. }
      rewrite EU in EM. rewrite EV in ED. assert (GG : good (nth i cs g0) (separated n S3 i)) by (split; assumption).
      split; [exact GG|]. rewrite (DE _ _ _ GG) in ED. exact ED. }
    split; [apply (Y 0); lia|]. split; [apply (Y 3); lia|]. split; [apply (Y 4); lia|apply (Y 5); lia].
  Qed.

  Lemma good_sum gc z u v : good gc u -> good gK v -> good (gp gc (smul z gK)) (vadd u (vscale z v)).
  Proof.
    intros (A1 & A2) (A3 & A4). split; [rewrite vadd_length; rewrite ?vscale_length; congruence|].
    rewrite (msum_add CL) by (rewrite vscale_length; congruence). rewrite (msum_scale CL), A2, A4. reflexivity.
  Qed.
  Definition ref3 (R Tp Tn Cc : list F) (gr gtp gtn gc : G) : Prop := good gr R /\ good gtp Tp /\ good gtn Tn /\ good gc Cc.
  Lemma cands3_good gr gtp gtn gc y x yn S3 R Tp Tn Cc : sem3 gr gtp gtn gc y x yn S3 -> rels3 S3 = [] -> ref3 R Tp Tn Cc gr gtp gtn gc ->
    forall z, In z (cands3 n s_poly k R Tp Tn Cc yn S3) -> length z = d /\ msum z gs = g0.
  Proof.
    intros HS HR (G1 & G2 & G3 & G4) z HI. destruct (no_rels3 _ _ _ _ _ _ _ _ HS HR) as (HZ & (S0 & _) & (S3' & _) & (S4 & _) & (S5 & _)).
    unfold cands3 in HI. apply in_app_or in HI. destruct HI as [HI|HI].
    - destruct HI as [<-|[<-|[<-|[<-|[]]]]]; [exact (diff_good _ _ _ S0 G1)|exact (diff_good _ _ _ S3' G2)|exact (diff_good _ _ _ S4 G3)|].
      refine (diff_good _ _ _ S5 _). split; [apply resize_len|reflexivity].
    - apply in_flat_map in HI. destruct HI as (zA & HI & H). destruct (HZ zA HI) as ((Z1 & _) & (Z3 & _) & (Z4 & _)).
      destruct H as [<-|[<-|[<-|[]]]]; [exact (diff_good _ _ _ Z1 G1)|exact (diff_good _ _ _ Z4 G4)|].
      refine (diff_good _ _ _ Z3 _). apply good_sum; [exact G4|]. split; [apply resize_len|reflexivity].
  Qed.
  (** the references *)
  Lemma first3_good j g S3 : with_z _ _ S3 <> [] -> (forall zA, In zA (with_z _ _ S3) -> good g (co zA j)) -> good g (first3 j S3).
  Proof. unfold first3. destruct (with_z _ _ S3) as [|zA l]; [congruence|]. intros _ H. apply H. left. reflexivity. Qed.
  Lemma first2_good f g S2 : with_y_new _ _ S2 <> [] -> (forall yn S3, In (yn, S3) (with_y_new _ _ S2) -> good g (f S3)) -> good g (first2 f S2).
  Proof. unfold first2. destruct (with_y_new _ _ S2) as [|[yn S3] l]; [congruence|]. intros _ H. apply (H yn). left. reflexivity. Qed.
  Lemma first1_good f g S1 : with_x _ _ S1 <> [] -> (forall x S2, In (x, S2) (with_x _ _ S1) -> good g (f S2)) -> good g (first1 f S1).
  Proof. unfold first1. destruct (with_x _ _ S1) as [|[x S2] l]; [congruence|]. intros _ H. apply (H x). left. reflexivity. Qed.
  Lemma first0_good f g S0 : with_y _ _ S0 <> [] -> (forall y S1, In (y, S1) (with_y _ _ S0) -> good g (f S1)) -> good g (first0 f S0).
  Proof. unfold first0. destruct (with_y _ _ S0) as [|[y S1] l]; [congruence|]. intros _ H. apply (H y). left. reflexivity. Qed.
  Lemma nonempty {A} (l : list A) m : m <= length l -> 0 < m -> l <> [].
  Proof. intros H1 H2 ->. cbn in H1. lia. Qed.
  Lemma nonempty3 gr gtp gtn gc y x yn S3 : sem3 gr gtp gtn gc y x yn S3 -> with_z _ _ S3 <> [].
  Proof. intros (_ & HL & _). apply (nonempty _ 7); lia. Qed.
  Lemma c_good gr gtp gtn y x S2 gc : d <= length (with_y_new _ _ S2) -> (forall yn S3, In (yn, S3) (with_y_new _ _ S2) -> sem3 gr gtp gtn gc y x yn S3) -> rels2 S2 = [] ->
    good gc (c_of S2) /\ good gr (first2 (first3 1) S2) /\ good gtp (first2 (fun S3 => separated n S3 3) S2) /\ good gtn (first2 (fun S3 => separated n S3 4) S2).
  Proof.
    intros HL HS HR. assert (NE : with_y_new _ _ S2 <> []) by (apply (nonempty _ _ HL); unfold d; lia).
    assert (X : forall yn S3, In (yn, S3) (with_y_new _ _ S2) -> rels3 S3 = []) by (intros yn S3 HI; exact (flat_map_nil _ _ _ HR HI)).
    split; [|split; [|split]]; apply first2_good; try exact NE; intros yn S3 HI;
      pose proof (no_rels3 _ _ _ _ _ _ _ _ (HS _ _ HI) (X _ _ HI)) as (HZ & _ & (T3 & _) & (T4 & _) & _).
    - apply first3_good; [exact (nonempty3 _ _ _ _ _ _ _ _ (HS _ _ HI))|]. intros zA HA. apply (HZ zA HA).
    - apply first3_good; [exact (nonempty3 _ _ _ _ _ _ _ _ (HS _ _ HI))|]. intros zA HA. apply (HZ zA HA).
    - exact T3.
    - exact T4.
  Qed.
  Lemma t_good gr y S1 gtp gtn : 10 * n - 1 <= length (with_x _ _ S1) -> (forall x S2, In (x, S2) (with_x _ _ S1) -> sem2 gr gtp gtn y x S2) -> rels1 S1 = [] ->
    good gtp (t_of n 3 S1) /\ good gtn (t_of n 4 S1) /\ good gr (first1 (first2 (first3 1)) S1).
  Proof.
    intros HL HS HR. assert (NE : with_x _ _ S1 <> []) by (apply (nonempty _ _ HL); lia).
    assert (X : forall x S2, In (x, S2) (with_x _ _ S1) -> rels2 S2 = []) by (intros x S2 HI; exact (flat_map_nil _ _ _ HR HI)).
    split; [|split]; apply first1_good; try exact NE; intros x S2 HI; destruct (HS _ _ HI) as (_ & HL2 & gc & H2);
      destruct (c_good _ _ _ _ _ _ _ HL2 H2 (X _ _ HI)) as (_ & A1 & A2 & A3); assumption.
  Qed.
  Lemma r_good Q S0 gr : 2 * n + Q < length (with_y _ _ S0) -> (forall y S1, In (y, S1) (with_y _ _ S0) -> sem1 gr y S1) -> rels0 S0 = [] -> good gr (r_of S0).
  Proof.
    intros HL HS HR. apply first0_good; [apply (nonempty _ (2 * n + Q)); lia|]. intros y S1 HI. destruct (HS _ _ HI) as (_ & HL1 & gtp & gtn & H1).
    exact (proj2 (proj2 (t_good _ _ _ _ _ HL1 H1 (flat_map_nil _ _ _ HR HI)))).
  Qed.
  Lemma cands_good Q S0 : sem0 Q S0 -> rels0 S0 = [] -> forall z, In z (cands0 n s_poly k S0) -> length z = d /\ msum z gs = g0.
  Proof.
    intros (_ & HL & gr & H) HR z HI. pose proof (r_good _ _ _ HL H HR) as GR.
    unfold cands0 in HI. apply in_flat_map in HI. destruct HI as ([y S1] & H1 & HI). pose proof (flat_map_nil _ _ _ HR H1) as HR1. destruct (H _ _ H1) as (_ & HL1 & gtp & gtn & H').
    destruct (t_good _ _ _ _ _ HL1 H' HR1) as (GP & GN & _).
    unfold cands1 in HI. cbn [snd] in HI, HR1. apply in_flat_map in HI. destruct HI as ([x S2] & H2 & HI). pose proof (flat_map_nil _ _ _ HR1 H2) as HR2. destruct (H' _ _ H2) as (_ & HL2 & gc & H'').
    destruct (c_good _ _ _ _ _ _ _ HL2 H'' HR2) as (GC & _).
    unfold cands2 in HI. cbn [fst snd] in HI, HR2. apply in_flat_map in HI. destruct HI as ([yn S3] & H3 & HI). pose proof (flat_map_nil _ _ _ HR2 H3) as HR3. cbn [fst snd] in HI, HR3.
    refine (cands3_good _ _ _ _ _ _ _ _ _ _ _ _ (H'' _ _ H3) HR3 _ z HI). repeat (split; [assumption|]). assumption.
  Qed.

  (** *** When there is none among the differences either *)
  Section Algebra.
    Variables (lcs : list (LC F)) (ps : list nat) (vals : list F) (g : nat).
    Hypothesis Hs : forall y, exists u w z, s_poly y = sx_vec n u w z /\ length u <= n /\ length w <= n /\ length z <= n /\ forall f, total u w z f = s_sum lcs y f.
    Hypothesis Hky : forall y, eval_at k y = k_value ps vals (length lcs) y.
    Hypothesis HQ : length lcs < d.

    Lemma s_eval y x xi : x [*] xi = fone -> eval_at (s_poly y) x = fpow x n [*] s_value n lcs x xi y.
    Proof. intro Hx. destruct (Hs y) as (u & w & z & -> & Hu & Hw & Hz & HT). rewrite (sx_vec_eval SO n u w z x xi Hu Hw Hz Hx), HT. reflexivity. Qed.
    Lemma s_len y : length (s_poly y) = 3 * n + 1.
    Proof. destruct (Hs y) as (u & w & z & -> & _). apply sx_vec_length. Qed.
    Lemma s_short y : length (s_poly y) <= d. Proof. rewrite s_len. unfold d. lia. Qed.
    Lemma is_zero_no (z : list F) : negb (is_zero_vec (C := C) z) = false -> Forall (eq fzero) z.
    Proof. intro E. apply negb_false_iff in E. apply (is_zero_iff CL). exact E. Qed.

    Definition all_zero (l : list (list F)) : Prop := forall z, In z l -> Forall (eq fzero) z.
    Lemma all_zero_flat {A} (f : A -> list (list F)) l x : all_zero (flat_map f l) -> In x l -> all_zero (f x).
    Proof. intros H HI z Hz. apply H. apply in_flat_map. exists x. split; assumption. Qed.

    Lemma add_back (u v t : F) : u [+] t = v [+] t -> u = v.
    Proof. intro E. transitivity (u [+] t [-] t); [ring|]. rewrite E. ring. Qed.
    Lemma at3 gr gtp gtn gc y x yn S3 R Tp Tn Cc : sem3 gr gtp gtn gc y x yn S3 -> rels3 S3 = [] -> ref3 R Tp Tn Cc gr gtp gtn gc ->
      all_zero (cands3 n s_poly k R Tp Tn Cc yn S3) ->
      eval_at R x = rx_sent _ _ S3 /\ eval_at R (x [*] y) = rxy_sent _ _ S3 /\ eval_at Tp x = tx_positive_sent _ _ S3 /\ eval_at Tn x = tx_negative_sent _ _ S3 /\
      eval_at Cc y = sx_cur_sent _ _ S3 /\ eval_at Cc yn = eval_at (s_poly yn) x.
    Proof.
      intros HS HR (G1 & G2 & G3 & G4) HZ. pose proof (nonempty3 _ _ _ _ _ _ _ _ HS) as NE.
      destruct (no_rels3 _ _ _ _ _ _ _ _ HS HR) as (Z & (A1 & A2) & (B1 & B2) & (C1 & C2) & (D1 & D2)).
      assert (I : forall z, In z [diff (separated n S3 0) R; diff (separated n S3 3) Tp; diff (separated n S3 4) Tn; diff (separated n S3 5) (resize (s_poly yn) (4 * n))] -> Forall (eq fzero) z).
      { intros z Hz. apply HZ. unfold cands3. apply in_or_app. left. exact Hz. }
      pose proof (diff_eq _ _ (eq_trans (proj1 A1) (eq_sym (proj1 G1))) (I _ (or_introl eq_refl))) as E0.
      pose proof (diff_eq _ _ (eq_trans (proj1 B1) (eq_sym (proj1 G2))) (I _ (or_intror (or_introl eq_refl)))) as E3.
      pose proof (diff_eq _ _ (eq_trans (proj1 C1) (eq_sym (proj1 G3))) (I _ (or_intror (or_intror (or_introl eq_refl))))) as E4.
      pose proof (diff_eq _ _ (eq_trans (proj1 D1) (eq_sym (resize_len (s_poly yn) (4 * n)))) (I _ (or_intror (or_intror (or_intror (or_introl eq_refl)))))) as E5.
      destruct (with_z _ _ S3) as [|zA l] eqn:EZ; [congruence|]. assert (HA : In zA (zA :: l)) by (left; reflexivity).
      destruct (Z zA HA) as ((Z1 & Z1') & (Z3 & Z3') & (Z4 & Z4')).
      assert (J : forall z, In z [diff (co zA 1) R; diff (co zA 4) Cc; diff (co zA 3) (vadd Cc (vscale (zof zA) (resize k (4 * n))))] -> Forall (eq fzero) z).
      { intros z Hz. apply HZ. unfold cands3. apply in_or_app. right. rewrite EZ. apply in_flat_map. exists zA. split; [exact HA|exact Hz]. }
      assert (LK : length (vscale (zof zA) (resize k (4 * n))) = d) by (rewrite vscale_length; apply resize_len).
      assert (LC : length Cc = d) by apply G4.
      pose proof (diff_eq _ _ (eq_trans (proj1 Z1) (eq_sym (proj1 G1))) (J _ (or_introl eq_refl))) as F1.
      pose proof (diff_eq _ _ (eq_trans (proj1 Z4) (eq_sym (proj1 G4))) (J _ (or_intror (or_introl eq_refl)))) as F4.
      assert (LV : length (vadd Cc (vscale (zof zA) (resize k (4 * n)))) = d) by (rewrite vadd_length; congruence).
      pose proof (diff_eq _ _ (eq_trans (proj1 Z3) (eq_sym LV)) (J _ (or_intror (or_intror (or_introl eq_refl))))) as F3.
      rewrite E0 in A2. rewrite E3 in B2. rewrite E4 in C2. rewrite E5, (eval_resize SL) in D2 by apply s_short. rewrite F1 in Z1'. rewrite F4 in Z4'.
      rewrite F3, (eval_vadd CL) in Z3' by congruence. rewrite (eval_vscale CL), (eval_resize SL) in Z3' by exact Hk.
      split; [exact A2|]. split; [exact Z1'|]. split; [exact B2|]. split; [exact C2|]. split; [|congruence].
      exact (add_back _ _ _ Z3').
    Qed.

    Lemma at2 gr gtp gtn y x S2 R Tp Tn yi : sem2 gr gtp gtn y x S2 -> rels2 S2 = [] -> good gr R -> good gtp Tp -> good gtn Tn ->
      all_zero (cands2 n s_poly k R Tp Tn S2) -> y [*] yi = fone ->
      exists xi, x [*] xi = fone /\ at_x n R (s_poly y) Tp Tn y yi (eval_at k y) x xi.
    Proof.
      intros (HD & HL & gc & HS) HR GR GP GN HZ Hyi. destruct (c_good _ _ _ _ _ _ _ HL HS HR) as (GC & _).
      assert (X : forall yn S3, In (yn, S3) (with_y_new _ _ S2) ->
        eval_at R x = rx_sent _ _ S3 /\ eval_at R (x [*] y) = rxy_sent _ _ S3 /\ eval_at Tp x = tx_positive_sent _ _ S3 /\ eval_at Tn x = tx_negative_sent _ _ S3 /\
        eval_at (c_of S2) y = sx_cur_sent _ _ S3 /\ eval_at (c_of S2) yn = eval_at (s_poly yn) x).
      { intros yn S3 HI. refine (at3 _ _ _ _ _ _ _ _ _ _ _ _ (HS _ _ HI) (flat_map_nil _ _ _ HR HI) _ (all_zero_flat _ _ _ HZ HI)).
        split; [exact GR|]. split; [exact GP|]. split; [exact GN|exact GC]. }
      destruct (with_y_new _ _ S2) as [|[y1 S3] l] eqn:EL; [cbn in HL; unfold d in HL; lia|]. rewrite <- EL in *.
      assert (HI : In (y1, S3) (with_y_new _ _ S2)) by (rewrite EL; left; reflexivity).
      destruct (HS _ _ HI) as (_ & _ & (xi & yi' & Hx & Hy' & EQ) & _).
      assert (EY : yi' = yi).
      { transitivity (yi' [*] (y [*] yi)); [rewrite Hyi; ring|]. transitivity (yi [*] (y [*] yi')); [ring|rewrite Hy'; ring]. }
      subst yi'. exists xi. split; [exact Hx|].
      set (sy := vscale (fpow x n) (fzero :: map (lc_val (monomials n x xi)) lcs)).
      assert (Lsy : length sy <= d) by (unfold sy; rewrite vscale_length; cbn [length]; rewrite map_length; lia).
      assert (Ecy : c_of S2 = resize sy d).
      { apply diff_eq; [rewrite resize_len; apply GC|]. apply (roots_zero SO (map fst (with_y_new _ _ S2)) HD).
        - unfold diff. rewrite vadd_length, map_length; [|rewrite vscale_length, resize_len; apply GC]. rewrite (proj1 GC). exact HL.
        - intros yn Hyn. apply in_map_iff in Hyn. destruct Hyn as ([yn' S3'] & E & HI'). cbn [fst] in E. subst yn'.
          destruct (X _ _ HI') as (_ & _ & _ & _ & _ & E). unfold diff.
          rewrite (eval_vadd CL) by (rewrite vscale_length, resize_len; apply GC). rewrite (eval_vscale CL), (eval_resize SL) by exact Lsy.
          rewrite E, (s_eval yn x xi Hx). unfold sy. rewrite (eval_vscale CL), (sy_eval SO). ring. }
      destruct (X _ _ HI) as (E1 & E2 & E3 & E4 & E5 & _). unfold at_x. rewrite E1, E2, E3, E4.
      assert (E6 : eval_at (s_poly y) x = sx_cur_sent _ _ S3).
      { rewrite <- E5, Ecy, (eval_resize SL) by exact Lsy. unfold sy. rewrite (eval_vscale CL), (sy_eval SO). apply (s_eval y x xi Hx). }
      rewrite E6. exact EQ.
    Qed.

    Lemma skipn_twice (l : list F) : forall i j, skipn i (skipn j l) = skipn (i + j) l.
    Proof.
      induction l as [|x l IH]; intros i j; [rewrite !skipn_nil; reflexivity|]. destruct j as [|j]; [rewrite Nat.add_0_r; reflexivity|].
      rewrite Nat.add_succ_r. cbn [skipn]. apply IH.
    Qed.
    Lemma split_r (R : list F) : length R = 4 * n -> exists J r0,
      let a := skipn (3 * n) R in let b := rev (firstn n (skipn (2 * n - 1) R)) in let c := rev (firstn n (skipn (n - 1) R)) in
      length J = n - 1 /\ length a = n /\ length b = n /\ length c = n /\ R = J ++ rev c ++ rev b ++ [r0] ++ a.
    Proof.
      intro HR. exists (firstn (n - 1) R). destruct (skipn (3 * n - 1) R) as [|r0 a0] eqn:E.
      { apply (f_equal (@length F)) in E. rewrite skipn_length in E. cbn in E. lia. }
      exists r0. cbv zeta. rewrite !rev_length, !firstn_length, !skipn_length, !rev_involutive.
      split; [lia|]. split; [lia|]. split; [lia|]. split; [lia|].
      assert (A : skipn (3 * n) R = a0).
      { replace (3 * n) with (1 + (3 * n - 1)) by lia. rewrite <- skipn_twice, E. reflexivity. }
      rewrite A. cbn [app]. rewrite <- E.
      rewrite <- (firstn_skipn (n - 1) R) at 1. f_equal.
      rewrite <- (firstn_skipn n (skipn (n - 1) R)) at 1. f_equal. rewrite skipn_twice. replace (n + (n - 1)) with (2 * n - 1) by lia.
      rewrite <- (firstn_skipn n (skipn (2 * n - 1) R)) at 1. f_equal. rewrite skipn_twice. f_equal. lia.
    Qed.

    Lemma witness_right S0 : sem0 (length lcs) S0 -> rels0 S0 = [] -> all_zero (cands0 n s_poly k S0) ->
      let R := r_of S0 in let a := skipn (3 * n) R in let b := rev (firstn n (skipn (2 * n - 1) R)) in let c := rev (firstn n (skipn (n - 1) R)) in
      gates_satisfied n a b c /\ lcs_satisfied lcs ps vals a b c.
    Proof.
      intros (HD & HL & gr & H) HR HZ R. pose proof (r_good _ _ _ HL H HR) as GR. fold R in GR.
      destruct (split_r R (proj1 GR)) as (J & r0 & SP). cbv zeta in SP |- *.
      set (a := skipn (3 * n) R) in *. set (b := rev (firstn n (skipn (2 * n - 1) R))) in *. set (c := rev (firstn n (skipn (n - 1) R))) in *.
      destruct SP as (LJ & La & Lb & Lc & ER).
      apply (many_y SL n lcs ps vals a b c (r0 [*] r0) (map fst (with_y _ _ S0)) HD); [rewrite map_length; exact HL|].
      intros y Hy. apply in_map_iff in Hy. destruct Hy as ([y' S1] & E & HI). cbn [fst] in E. subst y'.
      destruct (H _ _ HI) as (HD1 & HL1 & gtp & gtn & H1). pose proof (flat_map_nil _ _ _ HR HI) as HR1. cbn [snd] in HR1.
      destruct (t_good _ _ _ _ _ HL1 H1 HR1) as (GP & GN & _).
      pose proof (all_zero_flat _ _ _ HZ HI) as HZ1. cbn [snd] in HZ1. fold R in HZ1.
      assert (YI : exists yi, y [*] yi = fone).
      { destruct (with_x _ _ S1) as [|[x S2] l] eqn:EL; [cbn in HL1; lia|]. destruct (H1 x S2 (or_introl eq_refl)) as (_ & HL2 & gc & H2).
        destruct (with_y_new _ _ S2) as [|[yn S3] l'] eqn:EL2; [cbn in HL2; unfold d in HL2; lia|].
        destruct (H2 yn S3 (or_introl eq_refl)) as (_ & _ & (xi & yi & _ & Hy & _) & _). exists yi. exact Hy. }
      destruct YI as (yi & Hyi). exists yi. split; [exact Hyi|].
      assert (MX : product_coeff R (bracket n R (s_poly y) y yi) (6 * n - 2) = fpow y n [*] eval_at k y).
      { apply (many_x SL n R (s_poly y) (t_of n 3 S1) (t_of n 4 S1) y yi (eval_at k y) (map fst (with_x _ _ S1)) Hn (proj1 GR) (s_len y) (proj1 GP) (proj1 GN) HD1);
          [rewrite map_length; lia|].
        intros x Hx. apply in_map_iff in Hx. destruct Hx as ([x' S2] & E & HI2). cbn [fst] in E. subst x'.
        exact (at2 _ _ _ _ _ _ _ _ _ yi (H1 _ _ HI2) (flat_map_nil _ _ _ HR1 HI2) GR GP GN (all_zero_flat _ _ _ HZ1 HI2) Hyi). }
      destruct (Hs y) as (u & w & z & ES & Hu & Hw & Hz & HT). rewrite ES in MX. unfold sx_vec in MX. rewrite ER in MX.
      rewrite (constant_any SL n J a b c (resize u n) (resize w n) (resize z n) r0 y yi Hn LJ La Lb Lc (resize_len _ _) (resize_len _ _) (resize_len _ _) Hyi) in MX.
      rewrite <- Hky, <- MX. f_equal. f_equal. rewrite <- (HT (wires a b c)). unfold total.
      rewrite (dot_comm SO a), (dot_comm SO b), (dot_comm SO c) by (rewrite resize_len; assumption).
      rewrite !(dot_lin), !(lin_resize SO) by assumption. reflexivity.
    Qed.
    Theorem solve_right S0 : sem0 (length lcs) S0 -> g <= n ->
      match solve n s_poly k S0 with
      | Witness a b c => gates_satisfied g a b c /\ lcs_satisfied lcs ps vals a b c
      | Related z => related z
      end.
    Proof.
      intros HS Hg. unfold solve. destruct (rels0 S0) as [|z l] eqn:HR.
      - destruct (find _ _) as [z|] eqn:HF.
        + apply find_some in HF. destruct HF as (HI & HZ). destruct (cands_good _ _ HS HR z HI) as (A1 & A2).
          split; [exact A1|]. split; [|exact A2]. intro E. apply (is_zero_iff CL) in E. rewrite E in HZ. discriminate HZ.
        + destruct (witness_right S0 HS HR) as (A1 & A2).
          { intros z HI. apply is_zero_no. exact (find_none _ _ HF z HI). }
          split; [|exact A2]. intros i Hi. apply A1. lia.
      - apply (rels_good _ _ _ HS). rewrite HR. left. reflexivity.
    Qed.
  End Algebra.
End Sound.
