(** Rescue: properties C36 (the circuit computes the native sponge), C37 (the
    native sponge is a duplex sponge) and C38 (which absorbed elements matter).

    A history is a list of operations: [Some x] absorbs [x], [None] squeezes.
    [native_run] runs it against src/rescue.rs; [sponge_circuit] runs a circuit
    that uses src/gadgets/rescue.rs, doing arbitrary other things between the
    operations. *)
From Coq Require Import String List Bool ZArith Lia.
From Verif Require Import Model.FieldTrait Model.FieldInst Model.Circuits Model.Num Model.Rescue Model.RescueGadget
  Spec.FieldLaws Spec.CircuitSpec Spec.NumSpec Spec.RescueSpec Proofs.FieldGen Proofs.FpFq Proofs.CircuitP
  Proofs.RescueP Proofs.SpongeP Proofs.RescueGadgetP Proofs.HonestP.
Import ListNotations.
Open Scope nat_scope.
Open Scope list_scope.

(** In every satisfying assignment, the values of the squeezed numbers are what
    the native sponge outputs on the values of the absorbed numbers; with honest
    hints the circuit is satisfiable. *)
Theorem C36_circuit_is_native : forall (F : Field) p v, FieldLaws F p v ->
  forall (w : assignment F) (one : Var), w one = fone ->
  forall cl : client F,
  sound w (sponge_circuit one cl)
    (fun '(outs, log) => native_run rescue_new (map (option_map (n_val w)) log) = Some (map (num_val w) outs)) /\
  (Forall (fun f => forall outs, Forall (num_ok w) outs ->
             complete w (f outs) (fun o => match o with Some n => n_ok w n | None => True end)) cl ->
   complete w (sponge_circuit one cl)
     (fun '(outs, log) => Forall (num_ok w) outs /\
        native_run rescue_new (map (option_map (n_val w)) log) = Some (map (num_val w) outs))).
Proof.
  intros F p v FL w one w1 cl. split; [exact (sponge_sound FL one w w1 cl)|exact (sponge_complete FL one w w1 cl)].
Qed.
Print Assumptions C36_circuit_is_native.

(** A circuit that absorbs 14 copies of a wire, squeezes, absorbs the output and
    squeezes again: it runs, and its two outputs are the native ones. *)
Example C36_nonvacuous : exists tr outs log (w : assignment Fp),
  let wire := mkNum (Some (@f_from_u64 Fp 7)) (VA 2) in
  let cl : client Fp := repeat (fun _ => ret (Some (n_from wire))) 14 ++
    [fun _ => ret None; fun outs => ret (option_map n_from (hd_error outs)); fun _ => ret None] in
  Exec (sponge_circuit (VA 1) cl) tr (Some (Ok (outs, log))) /\ constraints_hold w tr /\
  w (VA 1) = fone /\ w (VA 2) = @f_from_u64 Fp 7 /\
  native_run rescue_new (map (option_map (n_val w)) log) = Some (map (num_val w) outs).
Proof.
  set (w0 := fun x => match x with VA 2 => @f_from_u64 Fp 7 | _ => @fone Fp end).
  assert (E1 : forall w, extends 3 w0 w -> w (VA 1) = fone).
  { intros w H. rewrite H; [reflexivity|]. intros k E. injection E as <-. lia. }
  assert (E2 : forall w, extends 3 w0 w -> w (VA 2) = @f_from_u64 Fp 7).
  { intros w H. rewrite H; [reflexivity|]. intros k E. injection E as <-. lia. }
  set (wire := mkNum (Some (@f_from_u64 Fp 7)) (VA 2)).
  set (cl := repeat (fun _ => ret (Some (n_from wire))) 14 ++
    [fun _ => ret None; fun outs => ret (option_map n_from (hd_error outs)); fun _ => ret None] : client Fp).
  destruct (complete_runs (sponge_circuit (VA 1) cl) 3 w0 (fun w '(outs, log) => Forall (num_ok w) outs /\
     native_run rescue_new (map (option_map (n_val w)) log) = Some (map (num_val w) outs)))
    as (tr & [outs log] & w & H1 & H2 & H3 & H4 & H5).
  - intros w' Hw. apply (sponge_complete Fp_laws).
    + exact (E1 w' Hw).
    + assert (Hwire : n_ok w' (n_from wire)).
      { apply (NumP.n_from_ok Fp_laws). unfold num_ok, num_val, wire. cbn [num_value num_var]. f_equal.
        symmetry. exact (E2 w' Hw). }
      apply Forall_app. split; [apply Forall_forall; intros f Hf; apply repeat_spec in Hf; subst f; intros outs _; apply complete_ret; exact Hwire|].
      constructor; [intros outs _; apply complete_ret; exact I|].
      constructor; [|constructor; [intros outs _; apply complete_ret; exact I|constructor]].
      intros outs Ho. apply complete_ret. destruct Ho as [|y outs Hy _]; [exact I|]. apply (NumP.n_from_ok Fp_laws), Hy.
  - exists tr, outs, log, w. split; [exact H1|]. split; [exact H2|].
    split; [exact (E1 w H3)|]. split; [exact (E2 w H3)|exact H5].
Qed.

(** The Rescue permutation, as specified by [rescue_permutation], is a function
    on lists of 13 elements, ... *)
Theorem C37_permutation_function : forall (F : Field) p v, FieldLaws F p v ->
  (exists P : list F -> list F, forall s, length s = 13 -> rescue_permutation s (P s)) /\
  (forall s t t' : list F, length s = 13 -> rescue_permutation s t -> rescue_permutation s t' -> t = t').
Proof.
  intros F p v FL. split.
  - exists (fun s => staten s 20). intros s Hs. exact (permutation_staten FL s Hs).
  - intros s t t' Hs H H'. rewrite (permutation_fun FL s t Hs H). symmetry. exact (permutation_fun FL s t' Hs H').
Qed.
Print Assumptions C37_permutation_function.

(** ... and every history of the code's sponge is a history of the duplex sponge
    over it. *)
Theorem C37_native_is_duplex : forall (F : Field) p v, FieldLaws F p v ->
  forall P : list F -> list F, (forall s, length s = 13 -> rescue_permutation s (P s)) ->
  forall h : list (option F), native_run rescue_new h = Some (duplex_run P duplex_new h).
Proof. intros F p v FL P HP h. exact (native_refines FL P HP h). Qed.
Print Assumptions C37_native_is_duplex.

(** In closed form: absorb any number of full blocks and a last block of at most
    12 elements, then squeeze up to 12 times. *)
Theorem C37_transcript : forall (F : Field) p v, FieldLaws F p v ->
  forall P : list F -> list F, (forall s, length s = 13 -> rescue_permutation s (P s)) ->
  forall (full : list (list F)) (b : list F) (m : nat),
  Forall (fun b => length b = 12) full -> length b <= 12 -> (full <> [] -> b <> []) -> m <= 12 ->
  native_run rescue_new (map Some (concat full ++ b) ++ repeat None m) =
  Some (firstn m (absorb_blocks P (repeat fzero 13) (full ++ [b]))).
Proof.
  intros F p v FL P HP full b m Hf Hb He Hm. rewrite (native_refines FL P HP).
  exact (f_equal Some (transcript_run P (P_length FL P HP) full b m Hf Hb He Hm)).
Qed.
Print Assumptions C37_transcript.
Example C37_nonvacuous : exists (P : list Fp -> list Fp), (forall s, length s = 13 -> rescue_permutation s (P s)) /\
  native_run rescue_new (map Some (repeat fone 12 ++ [fzero; fone]) ++ repeat None 2) =
  Some (firstn 2 (P (mix (P (mix (repeat fzero 13) (repeat fone 12))) [fzero; fone]))).
Proof.
  destruct (C37_permutation_function _ _ _ Fp_laws) as [[P HP] _]. exists P. split; [exact HP|].
  apply (C37_transcript _ _ _ Fp_laws P HP [repeat fone 12] [fzero; fone] 2).
  - repeat constructor.
  - cbn [length]. lia.
  - discriminate.
  - lia.
Qed.

(** The element absorbed at a position that is a multiple of 12 (counted since
    the last squeeze, starting with 0) has no influence on any later output. *)
Theorem C38_first_slot_ignored : forall (F : Field) p v, FieldLaws F p v ->
  forall (h0 : list (option F)) (x x' : F) (h : list (option F)),
  since_squeeze 0 h0 mod 12 = 0 ->
  native_run rescue_new (h0 ++ Some x :: h) = native_run rescue_new (h0 ++ Some x' :: h).
Proof.
  intros F p v FL h0 x x' h H. destruct (C37_permutation_function F p v FL) as [[P HP] _].
  exact (native_ignores FL P HP h0 x x' h H).
Qed.
Print Assumptions C38_first_slot_ignored.

(** All the elements of a permuted state are determined by its first one: they
    form the arithmetic progression [1 + (i+1) * (s'_0 - 1)].  In particular the
    twelve outputs of a block are. *)
Theorem C38_outputs_dependent : forall (F : Field) p v, FieldLaws F p v ->
  forall s s' : list F, length s = 13 -> rescue_permutation s s' ->
  length s' = 13 /\ forall i, i < 13 -> at_ s' i = fadd fone (times (i + 1) (fsub (at_ s' 0) fone)).
Proof.
  intros F p v FL s s' Hs H. split; [|exact (output_ramp FL s s' Hs H)].
  rewrite (permutation_fun FL s s' Hs H). exact (staten_length FL s 20 Hs).
Qed.
Print Assumptions C38_outputs_dependent.

(** Hence "every absorbed element influences later challenges" is false: there
    are two transcripts with different first elements on which every continuation
    yields the same challenges, and the permutation is not injective. *)
Theorem C38_influence_refuted : forall (F : Field) p v, FieldLaws F p v ->
  (exists x x' : F, x <> x' /\
     forall h, native_run rescue_new (Some x :: h) = native_run rescue_new (Some x' :: h)) /\
  (exists s t s' : list F, length s = 13 /\ length t = 13 /\ s <> t /\ rescue_permutation s s' /\ rescue_permutation t s').
Proof.
  intros F p v FL. pose proof (fone_neq_zero (fl_ops _ _ _ FL)) as Hne. split.
  - exists fone, fzero. split; [exact Hne|]. intro h. exact (C38_first_slot_ignored F p v FL [] fone fzero h eq_refl).
  - exists (repeat fone 13), (fzero :: repeat fone 12), (staten (repeat fone 13) 20).
    assert (H : length (repeat (@fone F) 13) = 13) by reflexivity. split; [exact H|]. split; [reflexivity|]. split.
    + intro E. apply (f_equal (hd fzero)) in E. exact (Hne E).
    + split; [exact (permutation_staten FL _ H)|].
      apply (permutation_slot0 FL (repeat fone 13)); [exact H|reflexivity| |exact (permutation_staten FL _ H)].
      intros [|j] Hj; [lia|reflexivity].
Qed.
Print Assumptions C38_influence_refuted.
