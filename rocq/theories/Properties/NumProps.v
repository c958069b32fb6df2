(** C24, C32: linear combinations, numbers and combinations. [F] is any field
    satisfying the laws; [Fp_laws] and [Fq_laws] show that both fields of the
    code do (examples below). *)
From Coq Require Import String List ZArith.
From Verif Require Import Model.FieldTrait Model.FieldInst Model.Circuits Model.Num Spec.FieldLaws
  Spec.CircuitSpec Spec.NumSpec Spec.ExprSpec Proofs.NumP Spec.FieldSpec Proofs.ExprP Proofs.FpFq.
Import ListNotations.
Open Scope nat_scope.

(** [cmean]/[lmean]/[nmean]/[bmean] (Spec/ExprSpec.v): the value of the written
    expression.  Evaluation panics ([None]) exactly on an out-of-range wire. *)
Theorem C24_coefficients : forall (F : Field) p v, FieldLaws F p v ->
  forall (e : cexp F) (x : F),
  coeff_value (cbuild e) = cmean e /\ coeff_multiply (cbuild e) x = fmul (cmean e) x.
Proof. exact @coeff_meaning. Qed.
Print Assumptions C24_coefficients.

Theorem C24_linear_combinations : forall (F : Field) p v, FieldLaws F p v ->
  forall (e : lexp F) (a b c : list F),
  (Forall (in_vectors a b c) (lvars e) ->
     lc_evaluate (lbuild e) a b c = Some (lmean (of_vectors a b c) e)) /\
  (~ Forall (in_vectors a b c) (lvars e) -> lc_evaluate (lbuild e) a b c = None).
Proof. exact @lc_meaning. Qed.
Print Assumptions C24_linear_combinations.

(** For [Num] and [Combination]: the linear combination they stand for under any
    assignment, and the value they carry when their numbers carry [val]. *)
Theorem C24_nums : forall (F : Field) p v, FieldLaws F p v ->
  forall (e : nexp F) one w, w one = fone ->
  lc_val w (n_lc one (nbuild e)) = nmean (fun n => w (num_var n)) e /\
  forall val, (forall n, In n (nnums e) -> num_value n = Some (val n)) ->
    n_value (nbuild e) = Some (nmean val e).
Proof. exact @n_meaning. Qed.
Print Assumptions C24_nums.

Theorem C24_combinations : forall (F : Field) p v, FieldLaws F p v ->
  forall (e : bexp F) one w, w one = fone ->
  lc_val w (comb_lc one (bbuild e)) = bmean (fun n => w (num_var n)) e /\
  forall val, (forall n, In n (bnums e) -> num_value n = Some (val n)) ->
    comb_value (bbuild e) = Some (bmean val e).
Proof. exact @comb_meaning. Qed.
Print Assumptions C24_combinations.

Example C24_nonvacuous :
  let e : lexp Fp := LSubC (LAddV (LVar (VA 1)) (VB 2)) (KDouble KNegOne) (LAddCV LZero (KFull (@fone Fp)) (VC 1)) in
  let a := [@fone Fp; fone] in Forall (in_vectors a a a) (lvars e) /\ FieldLaws Fp p_modulus Fp_val.
Proof. simpl. split; [repeat constructor|exact Fp_laws]. Qed.

(** [sound w m Q]: in every execution of [m] whose constraints [w] satisfies the
    output satisfies [Q].  [complete w m Q]: an honest execution recorded in [w]
    succeeds and satisfies all constraints. *)
Theorem C32_allocated_numbers : forall (F : Field) p v, FieldLaws F p v ->
  forall (w : assignment F) (a b : AllocatedNum F) (value : res F) (x : F),
  (value = Ok x -> complete w (num_alloc value) (fun o => num_ok w o /\ num_val w o = x)) /\
  sound w (num_inputize a) (fun o => num_val w o = num_val w a) /\
  (num_ok w a -> complete w (num_inputize a) (fun o => num_ok w o /\ num_val w o = num_val w a)) /\
  sound w (num_mul a b) (fun o => num_val w o = fmul (num_val w a) (num_val w b)) /\
  (num_ok w a -> num_ok w b -> complete w (num_mul a b) (fun o => num_ok w o)) /\
  sound w (num_alloc_and_square value)
    (fun '(o, sq) => num_val w sq = fmul (num_val w o) (num_val w o)) /\
  (value = Ok x -> complete w (num_alloc_and_square value)
     (fun '(o, sq) => num_ok w o /\ num_ok w sq /\ num_val w o = x)).
Proof. exact @allocated_numbers. Qed.
Print Assumptions C32_allocated_numbers.

(** Inversion needs the constant wire [one] to carry 1; zero has no satisfying
    assignment. *)
Theorem C32_invert : forall (F : Field) p v, FieldLaws F p v ->
  forall (w : assignment F) one (a : AllocatedNum F), w one = fone ->
  sound w (num_invert one a)
    (fun o => fmul (num_val w o) (num_val w a) = fone /\ num_val w a <> fzero) /\
  (num_ok w a -> num_val w a <> fzero -> complete w (num_invert one a) (fun o => num_ok w o)).
Proof. exact @invert_gadget. Qed.
Print Assumptions C32_invert.

Theorem C32_sqrt : forall (F : Field) p v, FieldLaws F p v ->
  forall (w : assignment F) (a : AllocatedNum F),
  sound w (num_sqrt a) (fun o => fmul (num_val w o) (num_val w o) = num_val w a) /\
  (num_ok w a -> (exists r, fmul r r = num_val w a) ->
     complete w (num_sqrt a) (fun o => num_ok w o)).
Proof. exact @sqrt_gadget. Qed.
Print Assumptions C32_sqrt.

(** [comb_val w c]: the field expression of [c] (C24).  Combinations are those the
    operators build. *)
Theorem C32_combinations : forall (F : Field) p v, FieldLaws F p v ->
  forall (w : assignment F) one (d e : bexp F), w one = fone ->
  let c := bbuild d in let c' := bbuild e in
  let x := bmean (fun n => w (num_var n)) d in let y := bmean (fun n => w (num_var n)) e in
  sound w (comb_evaluate one c) (fun o => n_val w o = x) /\
  sound w (comb_mul one c c') (fun o => num_val w o = fmul x y) /\
  sound w (comb_square one c) (fun o => num_val w o = fmul x x) /\
  (Forall (num_ok w) (bnums d) -> Forall (num_ok w) (bnums e) ->
   complete w (comb_evaluate one c) (fun o => n_ok w o) /\
   complete w (comb_mul one c c') (fun o => num_ok w o) /\
   complete w (comb_square one c) (fun o => num_ok w o)).
Proof. exact @comb_gadgets. Qed.
Print Assumptions C32_combinations.

(** The fifth-power gadgets; [pow5 x] is [x*x*x*x*x]. *)
Theorem C32_fifth_powers : forall (F : Field) p v, FieldLaws F p v ->
  forall (w : assignment F) one (d : bexp F) (b : F), w one = fone ->
  let c := bbuild d in let x := bmean (fun n => w (num_var n)) d in
  sound w (constrain_pow_five (Some b)) (fun '(base, r) => w r = pow5 (w base)) /\
  complete w (constrain_pow_five (Some b)) (fun '(base, r) => w base = b /\ w r = pow5 b) /\
  sound w (comb_rescue_alpha one c) (fun o => n_val w o = pow5 x) /\
  sound w (comb_rescue_invalpha one c) (fun o => pow5 (n_val w o) = x) /\
  (forall y z : F, pow5 y = pow5 z -> y = z) /\
  (Forall (num_ok w) (bnums d) ->
   complete w (comb_rescue_alpha one c) (fun o => n_ok w o) /\
   complete w (comb_rescue_invalpha one c) (fun o => n_ok w o)).
Proof. exact @fifth_power_gadgets. Qed.
Print Assumptions C32_fifth_powers.
