(** Notions about the proof system: the prover's polynomials, true openings of
    polynomial commitments, folded generators and honest leftovers. *)
From Coq Require Import List Arith.
From Verif Require Import Model.FieldTrait Model.Circuits Model.Curve Model.Threads Model.Util Model.Rescue Model.Params Model.Opening Model.Proofs
  Spec.CircuitSpec Spec.CurveSpec Spec.UtilSpec Spec.SystemSpec.
Import ListNotations.
Open Scope nat_scope.
Open Scope list_scope.

Section Identity.
  Context {C : Curve}.
  Notation F := (Scalar C).
  (** r(X, 1) X^2n: the coefficients c_n .. c_1, b_n .. b_1, 0, a_1 .. a_n *)
  Definition rx_poly (n : nat) (s : layout F) : list F :=
    rev (resize (l_c s) n) ++ rev (resize (l_b s) n) ++ [fzero] ++ resize (l_a s) n.
  (** [c] is the constant coefficient that [Proof::new] finds in the product
      t(X, y) of r(X, 1) and r(X, y) + s'(X, y) (and compares with y^n k(y)),
      when the challenge is [y] and the circuit's wires have the values in [s]. *)
  Definition prover_constant (M : Machine) (P : Params C) (circuit : Var -> CS F unit) (s : layout F) (y c : F) : Prop :=
    exists yi sx rp tx, fmul y yi = fone /\ compute_sx P circuit y = Done (Ok sx) /\
      prime_poly (p_n P) (rx_poly (p_n P) s) sx y yi = Some rp /\
      multiply_polynomials M (rx_poly (p_n P) s) rp = Some tx /\ nth_error tx (4 * p_n P) = Some c.
End Identity.

(** A transcript that some sequence of [absorb]s and [squeeze]s leads to. *)
Inductive reached {F : Field} : Rescue F -> Prop :=
| reached_new : reached rescue_new
| reached_absorb t x : reached t -> reached (absorb t x)
| reached_squeeze t x t' : reached t -> squeeze t = Some (x, t') -> reached t'.

Section Openings.
  Context {C : Curve}.
  Notation F := (Scalar C).
  (** None of the first [n] challenges after [t] (with 0, 1, 2, ... appended to
      it) is the square of a scalar. *)
  Fixpoint number (j : nat) : Base C := match j with O => fzero | S j => fadd (number j) fone end.
  Definition no_challenge (n : nat) (t : Rescue (Base C)) : Prop :=
    forall j, j < n -> exists packed t', get_challenge F (absorb t (number j)) = Done (packed, t') /\
      f_sqrt (get_challenge_scalar packed : F) = None.
  (** A vector of coefficients stands at the left of [n] positions, or at the right edge. *)
  Definition offset (n : nat) (right_edge : bool) (v : list F) : nat := if right_edge then n - length v else 0.
  (** [D] is the commitment to [v]: the sum of the multiples v_i G_(offset + i) *)
  Definition commitment_to (generators : list C) (right_edge : bool) (v : list F) (D : C) : Prop :=
    length v <= length generators /\
    exists As A, Forall2 CurveSpec.represents generators As /\ CurveSpec.represents D A /\
      sum_of_multiples v (firstn (length v) (skipn (offset (length generators) right_edge v) As)) A.
  (** the value at [x]: the sum of v_i x^(offset + i) *)
  Definition value_at (n : nat) (right_edge : bool) (v : list F) (x : F) : F :=
    fsum (fun i => fmul (coeff v i) (fpow x (offset n right_edge v + i))) (length v).
  (** What an instance claims is true of the polynomial [v]. *)
  Definition true_claim (generators : list C) (i : PolynomialOpening C) (v : list F) : Prop :=
    commitment_to generators (po_right_edge i) v (po_commitment i) /\
    po_opening i = value_at (length generators) (po_right_edge i) v (po_point i).
  (** The verifier is given the same claims (as other values for the same points,
      possibly; it does not look at [right_edge]). *)
  Definition same_claim (i j : PolynomialOpening C) : Prop :=
    same_point (po_commitment i) (po_commitment j) /\ po_opening i = po_opening j /\ po_point i = po_point j.
  (** The generators folded with the square roots of the unpacked challenges give [g]. *)
  Definition folds_to (generators : list C) (packed : list F) (g : C) : Prop :=
    exists cs cis g', Forall2 (fun pk c => f_sqrt (get_challenge_scalar pk) = Some c) packed cs /\
      Forall2 (fun c ci => fmul c ci = fone) cs cis /\
      fold_vector fold_point (combine cs cis) generators = [g'] /\ same_point g g'.
End Openings.

Section System.
  Context {C : Curve}.
  Notation F := (Scalar C).
  (** Parameters as [Params::new] makes them (C53), with at most 2^30 generators *)
  Definition good_params (P : Params C) : Prop :=
    p_k P <= 30 /\ p_d P = 2 ^ p_k P /\ 4 * p_n P = 2 ^ p_k P /\
    length (p_generators P) = 2 ^ p_k P /\ Forall valid (p_generators P).
  (** What the old leftovers say is true: [g_new] is the generators folded with
      the packed challenges, and [s_new_commitment] commits to s(X, y_new) of the
      circuit. *)
  Definition honest_leftovers (P : Params C) (circuit : Var -> CS F unit) (L : Leftovers C) : Prop :=
    length (challenges_sq_packed_new L) = p_k P /\
    folds_to (p_generators P) (challenges_sq_packed_new L) (g_new L) /\
    exists sx, compute_sx P circuit (y_new L) = Done (Ok sx) /\
      commitment_to (p_generators P) false sx (s_new_commitment L).
  (** The prover's circuit runs with its witness, describes the same system of
      constraints as the verifier's (which may have other closures), satisfies it
      and fits. *)
  Definition can_prove (P : Params C) (prover verifier : Var -> CS F unit) (s : layout F) : Prop :=
    laid_out true prover s /\ (exists t, laid_out false prover t /\ same_system s t) /\
    (exists t, laid_out false verifier t /\ same_system s t) /\
    satisfied s /\ l_gates s < p_n P /\ length (l_lcs s) < p_d P.
  (** [K] commits to k(Y): the public inputs at the numbers of their constraints. *)
  Definition commits_to_inputs (P : Params C) (s : layout F) (K : C) : Prop :=
    exists v, commitment_to (p_generators P) false v K /\ forall q, coeff v q = input_at (l_inputs s) (l_values s) q.
  (** The proofs of [steps] in a row, each with the leftovers of the one before. *)
  Inductive proofs_in_a_row (M : Machine) (fuel : nat) (P : Params C) : Leftovers C ->
      list ((Var -> CS F unit) * Leftovers C * Proof_ C * Leftovers C) -> Prop :=
  | row_nil L : proofs_in_a_row M fuel P L []
  | row_cons L prover pf L' steps : proof_new M fuel P prover L = Done (Ok (pf, L')) ->
      proofs_in_a_row M fuel P L' steps -> proofs_in_a_row M fuel P L ((prover, L, pf, L') :: steps).
End System.

Section DeferredSpec.
  Context {F : Field}.
  (** The powers 1, x, x^2, .. folded with the square roots of the unpacked
      challenges give [b]. *)
  Definition powers_fold_to (packed : list F) (x b : F) : Prop :=
    exists cs cis, Forall2 (fun pk c => f_sqrt (get_challenge_scalar pk) = Some c) packed cs /\
      Forall2 (fun c ci => fmul c ci = fone) cs cis /\
      fold_vector fold_scalar (combine cs cis) (powers x (2 ^ length cs)) = [b].
  (** The equation between the openings at x ([xi], [yi] are the inverses of x
      and y = y_cur; the openings of r and t are shifted by powers of x):
      r(x,1) (r(x,y) + s'(x,y)) - y^n k(y) = t(x,y) without its constant term. *)
  Definition deferred_equation (n : nat) (D : Deferred F) (xi yi : F) : Prop :=
    let x := d_x D in let y := d_y_cur D in
    fsub (fmul (fmul (d_rx_opening D) (fpow xi (3 * n - 1)))
               (fadd (fmul (d_rxy_opening D) (fpow (fmul xi yi) (3 * n - 1)))
                     (fsub (fmul (fmul (d_sx_cur_opening D) (fpow xi n)) (fpow y n))
                           (fmul (fpow x n) (sum_q (fun i => fadd (fpow (fmul x y) i) (fpow (fmul x yi) i)) n)))))
         (fmul (d_ky_opening D) (fpow y n))
    = fadd (fmul (d_tx_positive_opening D) x) (fmul (d_tx_negative_opening D) (fpow xi (4 * n))).
End DeferredSpec.
