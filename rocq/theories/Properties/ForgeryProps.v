(** C55: acceptance does not show that the circuit is satisfiable.  [forge] (an
    attacker's program), [all_accepted] and [satisfiable] are in
    Spec/ForgerySpec.v. *)
From Coq Require Import ZArith List Bool Arith Lia.
From Verif Require Import Model.FieldTrait Model.FieldInst Model.Circuits Model.Curve Model.Threads Model.Util Model.Rescue Model.Params Model.Opening Model.Proofs
  Spec.FieldSpec Spec.FieldLaws Spec.CircuitSpec Spec.CurveSpec Spec.CurveLaws Spec.UtilSpec Spec.SystemSpec Spec.ProofSpec Spec.ForgerySpec
  Proofs.FieldGen Proofs.FpFq Proofs.CurveInst Proofs.CurveTop Proofs.UtilTop Proofs.ExampleP Proofs.ParamsP Proofs.ParamsTop Proofs.ProverTop Proofs.ForgeryP.
Import ListNotations.
Open Scope nat_scope. Open Scope list_scope.

(** Without a witness, for every circuit that fits the parameters and all public
    inputs, the attacker finds old leftovers and a proof such that every check
    accepts; or a search for a challenge with a square root did not end. *)
Theorem C55_forgery : forall C r, halo_curve C r -> forall M M', machine_ok M -> machine_ok M' ->
  forall fuel (P : Params C) circuit t inputs, good_params P -> 2 <= p_k P -> fuel <= 256 ->
  laid_out false circuit t -> length inputs = length (l_inputs t) - 1 -> length (l_lcs t) < p_d P ->
  (forge M fuel P circuit inputs = Running /\ exists tr, reached tr /\ no_challenge (C := C) fuel tr) \/
  exists L pf, forge M fuel P circuit inputs = Done (Ok (L, pf)) /\ all_accepted M' P circuit inputs L pf.
Proof.
  intros C r [|] M M' HM HM' fuel P circuit t inputs HP Hk Hf HT Hin HQ.
  - destruct (good_reps Ec0_laws P HP) as (gs & HG).
    destruct (forgery Ec0_laws P gs HP HG circuit t inputs M M' fuel magic_fp HM HM' Hk HT Hin HQ) as [H|(L & pf & E & HL & HA)]; [left; exact H|].
    right. exists L, pf. split; [exact E|]. split; [exact HL|exact (HA Hf)].
  - destruct (good_reps Ec1_laws P HP) as (gs & HG).
    destruct (forgery Ec1_laws P gs HP HG circuit t inputs M M' fuel magic_fq HM HM' Hk HT Hin HQ) as [H|(L & pf & E & HL & HA)]; [left; exact H|].
    right. exists L, pf. split; [exact E|]. split; [exact HL|exact (HA Hf)].
Qed.

(** A circuit that demands 1 = 0, and the squares circuit with an arbitrary
    public input and no witness *)
Definition false_circuit {F : Field} (one : Var) : CS F unit := EnforceZero [(one, COne)] (Ret (Ok tt)).
Theorem C55_soundness_refuted : forall k, 3 < k <= 30 -> exists (P : Params Ec0) (t : layout Fp),
  p_k P = k /\ good_params P /\ laid_out false false_circuit t /\ ~ satisfiable (C := Ec0) t [] /\
  forall M M' fuel, machine_ok M -> machine_ok M' -> fuel <= 256 ->
  (exists tr, reached tr /\ no_challenge (C := Ec0) fuel tr) \/ exists L pf, all_accepted M' P false_circuit [] L pf.
Proof.
  intros k Hk. destruct (params_exist k (proj1 Hk)) as (P & E).
  destruct (params_new_done Ec0_laws gen_bytes 1 k P gen_bytes_random E) as (_ & Pk & Pd & Pn & Pg & HG & _).
  assert (HP : good_params P).
  { unfold good_params. rewrite Pk. split; [apply Hk|]. split; [exact Pd|]. split; [exact Pn|]. split; [exact Pg|].
    clear - HG. induction HG as [|G xy l l' H _ IH]; constructor; [exists (Some xy); exact H|exact IH]. }
  assert (H16 : 16 <= 2 ^ k). { change 16 with (2 ^ 4). apply Nat.pow_le_mono_r; lia. }
  pose (t := mkLayout (F := Fp) (Some 1) 1 [[(VA 1, COne)]; [(VA 1, COne)]] [1] [fzero] [fzero] [fzero] [fzero]).
  assert (HT : laid_out false false_circuit t) by reflexivity.
  exists P, t. split; [exact Pk|]. split; [exact HP|]. split; [exact HT|]. split.
  - intros (a & b & c & _ & H). pose proof (H 1 [(VA 1, COne)] eq_refl (le_n 1)) as H1. pose proof (H 2 [(VA 1, COne)] eq_refl ltac:(lia)) as H2.
    apply (fone_neq_zero (fl_ops _ _ _ Fp_laws)). change (input_at (l_inputs t) [fone] 1) with (@fone Fp) in H1. rewrite <- H1, H2. reflexivity.
  - intros M M' fuel HM HM' Hf.
    destruct (C55_forgery Ec0 _ halo_ec0 M M' HM HM' fuel P false_circuit t [] HP ltac:(lia) Hf HT eq_refl ltac:(cbn [length l_lcs t]; lia)) as [[_ H]|(L & pf & _ & H)];
      [left; exact H|right; exists L, pf; exact H].
Qed.

Print Assumptions C55_forgery.
Print Assumptions C55_soundness_refuted.
