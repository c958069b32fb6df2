(** What the recursive verification circuit (src/recursion.rs) accepts: a proof whose
    verification succeeds with equality in every claim. *)
From Coq Require Import ZArith List Bool Arith.
From Verif Require Import Model.FieldTrait Model.Circuits Model.Curve Model.Util Model.Rescue Model.Params Model.Opening Model.Proofs
  Spec.FieldLaws Spec.CircuitSpec Spec.CurveSpec Spec.UtilSpec Spec.SystemSpec Spec.ProofSpec Spec.VerifySpec.
Import ListNotations.
Open Scope nat_scope. Open Scope list_scope.

Section Checks.
  Context {C : Curve}.
  Notation F := (Scalar C).
  (** [claim_passes] without its exception: the two sides of the equation between
      points are equal, also if the left side is the point at infinity *)
  Definition claim_holds (g : C) (rounds : list (InnerProductRound C)) (packed : list F) (j : nat)
      (claim : PolynomialOpening C) (a : F) : Prop :=
    exists cs cis Ls Rs ls rs A b,
      Forall2 (fun pk c => f_sqrt (get_challenge_scalar pk) = Some c) packed cs /\
      Forall2 (fun c ci => fmul c ci = fone) cs cis /\
      Forall2 (fun round L => nth_error (ip_L round) j = Some L) rounds Ls /\
      Forall2 (fun round R => nth_error (ip_R round) j = Some R) rounds Rs /\
      Forall2 (fun round l => nth_error (ip_l round) j = Some l) rounds ls /\
      Forall2 (fun round r => nth_error (ip_r round) j = Some r) rounds rs /\
      combination (fone :: squares cs ++ squares cis) (po_commitment claim :: Ls ++ Rs) A /\
      combination [a] [g] A /\
      powers_fold_to packed (po_point claim) b /\
      fadd (po_opening claim) (fadd (dot (squares cs) ls) (dot (squares cis) rs)) = fmul a b.
  (** The conversation of the rounds of the inner product argument, where the fork
      values are given ([rounds_run] also says how the prover chose them) and [mss] are
      the messages of the rounds. *)
  Inductive said (m : nat) : Rescue (Base C) -> list (InnerProductRound C) -> list (list (C * C * F * F)) -> list F -> list nat -> Rescue (Base C) -> Prop :=
  | said_nil t : said m t [] [] [] [] t
  | said_cons t round ms n packed t1 rounds mss packeds forks t' :
      sent m round ms -> n < 256 -> challenge_after (absorb (appended t (spoken ms)) (number n)) packed t1 ->
      said m t1 rounds mss packeds forks t' ->
      said m t (round :: rounds) (ms :: mss) (packed :: packeds) (n :: forks) t'.
  (** The equations of a claim, in terms of the squares [us] of the challenges and
      their inverses, with a claimed value [b] for the folded powers of the point. *)
  Definition claim_adds_up (g : C) (rounds : list (InnerProductRound C)) (packed : list F) (j : nat)
      (claim : PolynomialOpening C) (a b : F) : Prop :=
    exists us uis Ls Rs ls rs A,
      Forall2 (fun pk u => u = get_challenge_scalar pk) packed us /\
      Forall2 (fun u ui => fmul u ui = fone) us uis /\
      Forall2 (fun round L => nth_error (ip_L round) j = Some L) rounds Ls /\
      Forall2 (fun round R => nth_error (ip_R round) j = Some R) rounds Rs /\
      Forall2 (fun round l => nth_error (ip_l round) j = Some l) rounds ls /\
      Forall2 (fun round r => nth_error (ip_r round) j = Some r) rounds rs /\
      combination (fone :: us ++ uis) (po_commitment claim :: Ls ++ Rs) A /\
      combination [a] [g] A /\
      fadd (po_opening claim) (fadd (dot us ls) (dot uis rs)) = fmul a b.
  (** The proof with the openings that [D] claims, where the circuit takes them from *)
  Definition claimed (D : Deferred F) (pf : Proof_ C) : Proof_ C :=
    mkProof (pf_r_commitment pf) (pf_s_cur_commitment pf) (pf_t_positive_commitment pf) (pf_t_negative_commitment pf)
      (pf_c_commitment pf) (pf_s_new_commitment pf)
      (d_rx_opening D) (d_rxy_opening D) (pf_sx_old_opening pf) (d_sx_cur_opening D) (d_tx_positive_opening D) (d_tx_negative_opening D)
      (pf_sx_new_opening pf) (pf_inner_product pf).
  (** The verification of [pf] with the commitment [K] to its public inputs and the
      old leftovers [L] succeeds, every claim with equality, and its results are
      [L'], [D] and [forks].  ky, the value of the polynomial of the public inputs,
      is only claimed (by [D]). *)
  Definition verified_exactly (K : C) (pf : Proof_ C) (L L' : Leftovers C) (D : Deferred F) (forks : list nat) : Prop :=
    exists gx y x yn z t t' claims, let ky := d_ky_opening D in
      powers_fold_to (challenges_sq_packed_new L) x gx /\
      conversation K pf ky gx y x yn z t /\
      five_claims K pf L ky gx y x yn (get_challenge_scalar z) claims /\
      rounds_run 5 t (mo_rounds (pf_inner_product pf)) (challenges_sq_packed_new L') forks t' /\
      (forall j claim a, nth_error claims j = Some claim -> nth_error (mo_a (pf_inner_product pf)) j = Some a ->
         claim_holds (mo_g (pf_inner_product pf)) (mo_rounds (pf_inner_product pf)) (challenges_sq_packed_new L') j claim a) /\
      s_new_commitment L' = pf_s_new_commitment pf /\ y_new L' = yn /\ g_new L' = mo_g (pf_inner_product pf) /\
      d_x D = x /\ d_y_old D = y_new L /\ d_y_cur D = y /\ d_y_new D = yn /\
      d_tx_positive_opening D = pf_tx_positive_opening pf /\ d_tx_negative_opening D = pf_tx_negative_opening pf /\
      d_sx_cur_opening D = pf_sx_cur_opening pf /\ d_rx_opening D = pf_rx_opening pf /\ d_rxy_opening D = pf_rxy_opening pf /\
      d_challenges_sq_packed_old D = challenges_sq_packed_new L /\ d_gx_old_opening D = gx /\
      d_challenges_sq_packed_new D = challenges_sq_packed_new L' /\
      powers_fold_to (challenges_sq_packed_new L') x (d_b_x D) /\ powers_fold_to (challenges_sq_packed_new L') (fmul x y) (d_b_xy D) /\
      powers_fold_to (challenges_sq_packed_new L') (y_new L) (d_b_y_old D) /\
      powers_fold_to (challenges_sq_packed_new L') y (d_b_y_cur D) /\ powers_fold_to (challenges_sq_packed_new L') yn (d_b_y_new D).
  Definition same_point (P Q : C) : Prop := exists A, CurveSpec.represents P A /\ CurveSpec.represents Q A.
  (** What the circuit checks of [pf], with the commitment [K] to its public inputs,
      the old leftovers [L], the new leftovers [L'], the deferred value [D] and the
      fork values [forks]: the conversation with the openings that [D] claims gives the
      challenges of [D] and [L'], and the five claims add up with the values of [D].
      Not checked here: the values of [D] themselves (that is deferred), that the
      challenges are squares, and that the fork values are the least possible. *)
  Definition circuit_accepts (K : C) (pf : Proof_ C) (L L' : Leftovers C) (D : Deferred F) (forks : list nat) : Prop :=
    exists y x yn z t t' mss claims, let ky := d_ky_opening D in let gx := d_gx_old_opening D in
      conversation K (claimed D pf) ky gx y x yn z t /\
      five_claims K (claimed D pf) L ky gx y x yn (get_challenge_scalar z) claims /\
      said 5 t (mo_rounds (pf_inner_product pf)) mss (challenges_sq_packed_new L') forks t' /\
      (forall j claim a b, nth_error claims j = Some claim -> nth_error (mo_a (pf_inner_product pf)) j = Some a ->
         nth_error [d_b_x D; d_b_xy D; d_b_y_old D; d_b_y_cur D; d_b_y_new D] j = Some b ->
         claim_adds_up (mo_g (pf_inner_product pf)) (mo_rounds (pf_inner_product pf)) (challenges_sq_packed_new L') j claim a b) /\
      same_point (s_new_commitment L') (pf_s_new_commitment pf) /\ y_new L' = yn /\ same_point (g_new L') (mo_g (pf_inner_product pf)) /\
      d_x D = x /\ d_y_old D = y_new L /\ d_y_cur D = y /\ d_y_new D = yn /\
      d_challenges_sq_packed_old D = challenges_sq_packed_new L /\ d_challenges_sq_packed_new D = challenges_sq_packed_new L'.
  (** A proof and leftovers of curve points *)
  Definition proof_of_points (k : nat) (pf : Proof_ C) (L : Leftovers C) : Prop :=
    Forall valid [pf_r_commitment pf; pf_s_cur_commitment pf; pf_t_positive_commitment pf; pf_t_negative_commitment pf;
                  pf_c_commitment pf; pf_s_new_commitment pf; s_new_commitment L; g_new L] /\
    well_formed 5 k (pf_inner_product pf).
End Checks.

(** If the circuit is run with the closures that compute its values, and the values
    recorded satisfy its constraints, then [Q]. *)
Definition satisfied_only_if {F : Field} {A} (w : assignment F) (m : CS F A) (Q : A -> Prop) : Prop :=
  forall tr a, Exec m tr (Some (Ok a)) -> witnessed w tr -> constraints_hold w tr -> Q a.

(** Two lists of bits are equal as far as the shorter one goes. *)
Definition agree (l l' : list bool) : Prop := forall i x y, nth_error l i = Some x -> nth_error l' i = Some y -> x = y.

Section Inputs.
  Context {C : Curve}.
  Notation F := (Base C).
  (** [bit_sum gens bits A B]: B is A plus the generators whose bits are set, where no
      partial sum is the point at infinity or plus or minus the next generator;
      bits beyond the generators are ignored. *)
  Inductive bit_sum : list (F * F) -> list bool -> point F -> point F -> Prop :=
  | bit_sum_done gens A : bit_sum gens [] A A
  | bit_sum_short bits A : bit_sum [] bits A A
  | bit_sum_next x y gens (b : bool) bits A S B :
      A <> infinity -> A <> Some (x, y) -> A <> Some (x, fneg y) -> sum_of A (Some (x, y)) S ->
      bit_sum gens bits (if b then S else A) B -> bit_sum ((x, y) :: gens) (b :: bits) A B.
  (** The affine generators are points of the curve (C53). *)
  Definition good_generators (P : Params C) : Prop :=
    exists Gs : list C, Forall2 (fun G xy => CurveSpec.represents G (Some xy)) Gs (p_generators_xy P).
  (** The commitment to public inputs that are the bits [bits]: the second generator
      plus those of the bits from the third generator on. *)
  Definition bits_commitment (P : Params C) (bits : list bool) (B : point F) : Prop :=
    exists first second gens, p_generators_xy P = first :: second :: gens /\ bit_sum gens bits (Some second) B.
End Inputs.
