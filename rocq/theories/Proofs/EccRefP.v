(** Satisfying assignments that the gadgets of ecc.rs should not have. *)
From Coq Require Import String List Bool ZArith Lia Ring Field.
From Verif Require Import Lib.AbGroup Model.FieldTrait Model.Circuits Model.Num Model.Boolean Model.Curve Model.Ecc
  Spec.FieldLaws Spec.CircuitSpec Spec.NumSpec Spec.BoolSpec Spec.CurveSpec Spec.CurveLaws Spec.UtilSpec Spec.EccSpec
  Proofs.FieldGen Proofs.CircuitP Proofs.LcP Proofs.NumP Proofs.BoolP Proofs.CurveTop Proofs.EccP.
Import ListNotations.
Open Scope list_scope. Open Scope type_scope.

Section EccRef.
  Context {C : Curve} {q vb r vs} (CL : CurveLaws C q vb r vs).
  Notation F := (Base C).
  Let FL : FieldLaws F q vb := cl_base _ _ _ _ _ CL.
  Let OL : OpsLaws F q vb := fl_ops _ _ _ FL.
  Add Field Ff : (ffield OL).
  Notation onc := (on_curve (c_b C)).

  Ltac run m := let t := eval lazy -[fadd fmul fsub fneg fzero fone fsquare feqb fops Base c_b f_from_u64 f_from_bool f_BETA FT] in (fresh_run 10 m) in
    pose proof (fresh_exec m 10) as HE; change (fresh_run 10 m) with t in HE; cbn [fst snd] in HE.
  Ltac evs := repeat (apply Forall_cons; [cbv beta iota; try exact I|]); try apply Forall_nil.

  (** A curve point made of three wires whose values the prover does not reveal. *)
  Definition opaque (n : nat) : CurvePoint C := mkCP (n_from (mkNum None (VA n))) (n_from (mkNum None (VB n))) (Is (mkBit None (VC n))).
  Definition finite_at (w : assignment F) (n : nat) (x y : F) : Prop := w (VA n) = x /\ w (VB n) = y /\ w (VC n) = fzero.
  Lemma opaque_is w n x y : onc (Some (x, y)) -> finite_at w n x y -> cp_is w (opaque n) (Some (x, y)).
  Proof.
    intros HO (H1 & H2 & H3). split; [exact HO|]. cbn [cp_x cp_y cp_id opaque]. rewrite !(n_from_val FL). unfold num_val. cbn [num_var].
    split; [exact H1|]. split; [exact H2|]. cbn [at_infinity bool_is]. exact H3.
  Qed.

  Lemma add_incomplete_any x1 y1 x2 y2 X Y : onc (Some (x1, y1)) -> onc (Some (x2, y2)) -> x1 <> x2 ->
    exists w tr R, w (VA 1) = fone /\ cp_is w (opaque 2) (Some (x1, y1)) /\ cp_is w (opaque 3) (Some (x2, y2)) /\
      Exec (cp_add_incomplete (VA 1) (opaque 2) (opaque 3)) tr (Some (Ok R)) /\ constraints_hold w tr /\
      n_val w (cp_x R) = X /\ n_val w (cp_y R) = Y /\ bool_is w (cp_id R) false.
  Proof.
    intros H1 H2 HX. assert (HN : fsub x2 x1 <> fzero) by (intro E; apply HX; symmetry; exact (proj1 (fsub_zero OL _ _) E)).
    destruct (invert_some CL _ HN) as (i & _ & Hi).
    set (l := fmul i (fsub y2 y1)). set (x3 := fsub (fsub (fmul l l) x1) x2).
    pose (w := fun v => match v with
      | VA 1 => fone
      | VA 2 => x1 | VB 2 => y1 | VC 2 => fzero | VA 3 => x2 | VB 3 => y2 | VC 3 => fzero
      | VA 10 => X | VA 11 => Y
      | VA 12 => fsub x2 x1 | VB 12 => l | VC 12 => fsub y2 y1
      | VA 13 => l | VB 13 => l | VC 13 => fmul l l
      | VA 14 => fsub x1 x3 | VB 14 => l | VC 14 => fmul (fsub x1 x3) l
      | _ => fzero end : F).
    run (cp_add_incomplete (C := C) (VA 1) (opaque 2) (opaque 3)). exists w. eexists _, _. split; [reflexivity|].
    split; [apply opaque_is; [exact H1|repeat split]|]. split; [apply opaque_is; [exact H2|repeat split]|].
    split; [exact HE|]. split; [unfold constraints_hold; evs; cbn [holds lc_val coeff_val w]; try (subst x3; ring)|].
    - subst l. transitivity (fmul (fmul i (fsub x2 x1)) (fsub y2 y1)); [ring|]. rewrite Hi. ring.
    - unfold n_val, num_val. cbn [cp_x cp_y cp_id num_var coeff_val w bool_is bit_is bit_var].
      split; [ring|]. split; [ring|reflexivity].
  Qed.

  Lemma add_any x1 y1 x2 y2 X Y : onc (Some (x1, y1)) -> onc (Some (x2, y2)) -> x1 <> x2 ->
    exists w tr R, w (VA 1) = fone /\ cp_is w (opaque 2) (Some (x1, y1)) /\ cp_is w (opaque 3) (Some (x2, y2)) /\
      Exec (cp_add (VA 1) (opaque 2) (opaque 3)) tr (Some (Ok R)) /\ constraints_hold w tr /\
      n_val w (cp_x R) = X /\ n_val w (cp_y R) = Y /\ bool_is w (cp_id R) false.
  Proof.
    intros H1 H2 HX. assert (HN : fsub x2 x1 <> fzero) by (intro E; apply HX; symmetry; exact (proj1 (fsub_zero OL _ _) E)).
    destruct (invert_some CL _ HN) as (i & _ & Hi).
    assert (HY : fadd y1 y1 <> fzero) by (apply (double_nonzero CL); intro E; pose proof (ordinate_zero CL (Some (x1, y1)) H1 E) as K; discriminate K).
    destruct (invert_some CL _ HY) as (j & _ & Hj).
    set (l := fmul i (fsub y2 y1)). set (x3 := fsub (fsub (fmul l l) x1) x2).
    set (xx := fmul x1 x1). set (m := fmul j (fadd (fadd xx xx) xx)).
    pose (w := fun v => match v with
      | VA 1 => fone
      | VA 2 => x1 | VB 2 => y1 | VC 2 => fzero | VA 3 => x2 | VB 3 => y2 | VC 3 => fzero
      | VA 10 => X | VA 11 => Y
      | VA 13 => fsub x2 x1
      | VA 14 => fsub x2 x1 | VB 14 => i | VC 14 => fone
      | VA 15 => x1 | VB 15 => x1 | VC 15 => xx
      | VA 16 => fsub x2 x1 | VB 16 => l | VC 16 => fsub y2 y1
      | VA 17 => fadd y1 y1 | VB 17 => m | VC 17 => fadd (fadd xx xx) xx
      | VA 18 => l | VB 18 => l | VC 18 => fmul l l
      | VB 19 => fsub m l
      | VA 20 => fsub x1 x3 | VB 20 => l | VC 20 => fmul (fsub x1 x3) l
      | VA 21 => fadd y2 y1
      | VA 22 => X | VB 22 => fone | VC 22 => X
      | VA 23 => Y | VB 23 => fone | VC 23 => Y
      | VB 24 => fsub x2 X | VB 25 => fsub y2 Y | VB 26 => fsub x1 X | VB 27 => fsub y1 Y
      | _ => fzero end : F).
    run (cp_add (C := C) (VA 1) (opaque 2) (opaque 3)). exists w. eexists _, _. split; [reflexivity|].
    split; [apply opaque_is; [exact H1|repeat split]|]. split; [apply opaque_is; [exact H2|repeat split]|].
    split; [exact HE|]. split; [unfold constraints_hold; evs; cbn [holds lc_val coeff_val w]; rewrite ?(from_u64_3 CL); try (subst x3; ring)|].
    - transitivity (fmul i (fsub x2 x1)); [ring|]. exact Hi.
    - reflexivity.
    - subst l. transitivity (fmul (fmul i (fsub x2 x1)) (fsub y2 y1)); [ring|]. rewrite Hi. ring.
    - subst m. transitivity (fmul (fmul j (fadd y1 y1)) (fadd (fadd xx xx) xx)); [ring|]. rewrite Hj. ring.
    - unfold n_val, num_val. cbn [cp_x cp_y cp_id num_var coeff_val w bool_is bit_is bit_var].
      split; [ring|]. split; [ring|reflexivity].
  Qed.

  Lemma witness_any X Y : exists w tr (R : CurvePoint C), w (VA 1) = fone /\
      Exec (cp_witness (C := C) (VA 1) (Err AssignmentMissing)) tr (Some (Ok R)) /\ constraints_hold w tr /\
      n_val w (cp_x R) = X /\ n_val w (cp_y R) = Y /\ bool_is w (cp_id R) true.
  Proof.
    pose (w := fun v => match v with
      | VA 1 => fone | VA 10 => X | VA 11 => Y | VA 12 => fone | VB 12 => fone | VC 12 => fone
      | VA 13 => Y | VB 13 => Y | VC 13 => fmul Y Y | VA 14 => X | VB 14 => X | VC 14 => fmul X X
      | VA 15 => fmul X X | VB 15 => X | VC 15 => fmul (fmul X X) X
      | VA 16 => fsub (fadd (fmul (fmul X X) X) (c_b C)) (fmul Y Y) | _ => fzero end : F).
    run (cp_witness (C := C) (VA 1) (Err AssignmentMissing)).
    exists w. eexists _, _. split; [reflexivity|].
    split; [exact HE|]. split; [unfold constraints_hold; evs; cbn [holds lc_val coeff_val w]; try ring|].
    unfold n_val, num_val. cbn [cp_x cp_y cp_id num_var coeff_val w bool_is bit_is bit_var].
    split; [ring|]. split; [ring|reflexivity].
  Qed.

  (** The sum of the identity with itself may be flagged as finite. *)
  Lemma add_identities : exists w tr R, w (VA 1) = fone /\ cp_is w (opaque 2) infinity /\ cp_is w (opaque 3) infinity /\
      Exec (cp_add (VA 1) (opaque 2) (opaque 3)) tr (Some (Ok R)) /\ constraints_hold w tr /\ bool_is w (cp_id R) false.
  Proof.
    pose (w := fun v => match v with
      | VA 1 => fone
      | VC 2 => fone | VC 3 => fone
      | VB 13 => fone | VA 16 => fone | VA 19 => fone
      | VB 22 => fone | VB 23 => fone | VA 24 => fone | VA 25 => fone | VA 26 => fone | VA 27 => fone
      | _ => fzero end : F).
    run (cp_add (C := C) (VA 1) (opaque 2) (opaque 3)). exists w. eexists _, _. split; [reflexivity|].
    assert (K : forall n : nat, (n = 2 \/ n = 3)%nat -> cp_is w (opaque n) infinity).
    { intros n Hn. split; [exact I|]. cbn [cp_x cp_y cp_id opaque]. rewrite !(n_from_val FL). unfold num_val. cbn [num_var].
      destruct Hn as [-> | ->]; repeat split. }
    split; [apply K; auto|]. split; [apply K; auto|].
    split; [exact HE|]. split; [unfold constraints_hold; evs; cbn [holds lc_val coeff_val w]; rewrite ?(from_u64_3 CL); try ring|].
    reflexivity.
  Qed.
End EccRef.
