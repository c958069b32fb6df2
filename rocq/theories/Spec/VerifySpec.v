(** What the verifiers do, step by step, independently of the code: what is
    appended to the transcript before each challenge, and which equations make
    them accept. *)
From Coq Require Import ZArith List Arith.
From Verif Require Import Model.FieldTrait Model.Circuits Model.Curve Model.Util Model.Rescue Model.Params Model.Opening Model.Proofs
  Spec.FieldLaws Spec.CircuitSpec Spec.CurveSpec Spec.UtilSpec Spec.SystemSpec Spec.ProofSpec.
Import ListNotations.
Open Scope nat_scope.
Open Scope list_scope.

Section Transcripts.
  Context {C : Curve}.
  Notation F := (Scalar C).
  Notation transcript := (Rescue (Base C)).
  (** A point is appended as its two coordinates (two zeros for the point at
      infinity), a scalar as that multiple of the base point. *)
  Inductive item := Point (P : C) | Scal (x : F).
  Definition item_point (i : item) : C := match i with Point P => P | Scal x => c_mul c_one x end.
  Definition elements (i : item) : list (Base C) :=
    match c_get_xy (item_point i) with Some (x, y) => [x; y] | None => [fzero; fzero] end.
  Definition appended (t : transcript) (items : list item) : transcript :=
    fold_left absorb (flat_map elements items) t.
  (** A challenge: the 127 lower bits of the next element of the sponge, and 2^127 *)
  Definition challenge_after (t : transcript) (c : F) (t' : transcript) : Prop :=
    exists e, squeeze t = Some (e, t') /\
      le_val (f_to_bytes c) = (2 ^ 127 + le_val (f_to_bytes e) mod 2 ^ 127)%Z.

  (** The messages of one round of the inner product argument, for [m] claims *)
  Definition sent (m : nat) (round : InnerProductRound C) (ms : list (C * C * F * F)) : Prop :=
    length ms = m /\
    firstn m (ip_L round) = map (fun '(L, _, _, _) => L) ms /\ firstn m (ip_R round) = map (fun '(_, R, _, _) => R) ms /\
    firstn m (ip_l round) = map (fun '(_, _, l, _) => l) ms /\ firstn m (ip_r round) = map (fun '(_, _, _, r) => r) ms.
  Definition spoken (ms : list (C * C * F * F)) : list item :=
    flat_map (fun '(L, R, l, r) => [Point L; Point R; Scal l; Scal r]) ms.
  (** The rounds: after the messages, 0, 1, 2, .. are tried until the unpacked
      challenge has a square root; [n] is the first that works. *)
  Inductive rounds_run (m : nat) : transcript -> list (InnerProductRound C) -> list F -> list nat -> transcript -> Prop :=
  | rounds_none t : rounds_run m t [] [] [] t
  | rounds_one t round ms n packed t1 rounds packeds forks t' :
      sent m round ms -> n < 256 ->
      (forall j, j < n -> exists p t2, challenge_after (absorb (appended t (spoken ms)) (number j)) p t2 /\
                                      f_sqrt (get_challenge_scalar p : F) = None) ->
      challenge_after (absorb (appended t (spoken ms)) (number n)) packed t1 ->
      f_sqrt (get_challenge_scalar packed : F) <> None ->
      rounds_run m t1 rounds packeds forks t' ->
      rounds_run m t (round :: rounds) (packed :: packeds) (n :: forks) t'.
End Transcripts.
Arguments item C : clear implicits.

Section Checks.
  Context {C : Curve}.
  Notation F := (Scalar C).
  (** [P] is the sum of the multiples s_i P_i *)
  Definition combination (ss : list F) (Ps : list C) (A : point (Base C)) : Prop :=
    exists As, Forall2 CurveSpec.represents Ps As /\ sum_of_multiples ss As A.
  Definition squares (cs : list F) : list F := map (fun c => fmul c c) cs.
  (** What is checked for the j-th claim, with the challenges c_i (the square
      roots of the unpacked [packed]), their messages L_i, R_i, l_i, r_i and the
      final scalar [a]:
      P + sum c_i^2 L_i + c_i^-2 R_i = a g and v + sum c_i^2 l_i + c_i^-2 r_i = a b,
      where b is the fold of the powers of the point; but the first equation
      also passes if its left side is the point at infinity. *)
  Definition claim_passes (g : C) (rounds : list (InnerProductRound C)) (packed : list F) (j : nat)
      (claim : PolynomialOpening C) (a : F) : Prop :=
    exists cs cis Ls Rs ls rs A B b,
      Forall2 (fun pk c => f_sqrt (get_challenge_scalar pk) = Some c) packed cs /\
      Forall2 (fun c ci => fmul c ci = fone) cs cis /\
      Forall2 (fun round L => nth_error (ip_L round) j = Some L) rounds Ls /\
      Forall2 (fun round R => nth_error (ip_R round) j = Some R) rounds Rs /\
      Forall2 (fun round l => nth_error (ip_l round) j = Some l) rounds ls /\
      Forall2 (fun round r => nth_error (ip_r round) j = Some r) rounds rs /\
      combination (fone :: squares cs ++ squares cis) (po_commitment claim :: Ls ++ Rs) A /\
      combination [a] [g] B /\ (A = infinity \/ A = B) /\
      powers_fold_to packed (po_point claim) b /\
      fadd (po_opening claim) (fadd (dot (squares cs) ls) (dot (squares cis) rs)) = fmul a b.
  (** An argument of curve points for [m] claims and [k] rounds *)
  Definition well_formed (m k : nat) (pf : MultiPolynomialOpening C) : Prop :=
    1 <= k /\ length (mo_rounds pf) = k /\ m <= length (mo_a pf) /\ valid (mo_g pf) /\
    Forall (fun round => m <= length (ip_L round) /\ m <= length (ip_R round) /\ m <= length (ip_l round) /\
                         m <= length (ip_r round) /\ Forall valid (ip_L round) /\ Forall valid (ip_R round)) (mo_rounds pf).

  (** [Proof::verify]: the challenges y, x, y_new and z (packed) *)
  Definition conversation (K : C) (pf : Proof_ C) (ky gx y x yn z : F) (t : Rescue (Base C)) : Prop :=
    exists t1 t2 t3,
      challenge_after (appended rescue_new [Point K; Point (pf_r_commitment pf)]) y t1 /\
      challenge_after (appended t1 [Point (pf_s_cur_commitment pf); Point (pf_t_positive_commitment pf);
                                    Point (pf_t_negative_commitment pf)]) x t2 /\
      challenge_after (appended t2 [Point (pf_c_commitment pf)]) yn t3 /\
      challenge_after (appended t3 [Point (pf_s_new_commitment pf); Scal ky; Scal (pf_rx_opening pf);
        Scal (pf_rxy_opening pf); Scal (pf_sx_old_opening pf); Scal (pf_sx_cur_opening pf);
        Scal (pf_tx_positive_opening pf); Scal (pf_tx_negative_opening pf); Scal (pf_sx_new_opening pf); Scal gx]) z t.
  (** z^6, z^5, .., 1 *)
  Definition falling (z : F) : list F := rev (powers z 7).
  (** The five claims, with z the unpacked challenge: the combination of seven
      commitments at x, r at xy, c at y_old, c + z k at y and c at y_new *)
  Definition five_claims (K : C) (pf : Proof_ C) (L : Leftovers C) (ky gx y x yn z : F)
      (claims : list (PolynomialOpening C)) : Prop :=
    exists D E A B, CurveSpec.represents D A /\ CurveSpec.represents E B /\
      combination (falling z) [pf_r_commitment pf; s_new_commitment L; pf_s_cur_commitment pf; pf_t_positive_commitment pf;
                               pf_t_negative_commitment pf; pf_s_new_commitment pf; g_new L] A /\
      combination [fone; z] [pf_c_commitment pf; K] B /\
      map po_commitment claims = [D; pf_r_commitment pf; pf_c_commitment pf; E; pf_c_commitment pf] /\
      map po_opening claims = [dot (falling z) [pf_rx_opening pf; pf_sx_old_opening pf; pf_sx_cur_opening pf;
                                 pf_tx_positive_opening pf; pf_tx_negative_opening pf; pf_sx_new_opening pf; gx];
                               pf_rxy_opening pf; pf_sx_old_opening pf; fadd (pf_sx_cur_opening pf) (fmul z ky);
                               pf_sx_new_opening pf] /\
      map po_point claims = [x; fmul x y; y_new L; y; yn].
  (** A proof and old leftovers of curve points *)
  Definition well_formed_proof (k : nat) (pf : Proof_ C) (L : Leftovers C) : Prop :=
    Forall valid [pf_r_commitment pf; pf_s_cur_commitment pf; pf_t_positive_commitment pf; pf_t_negative_commitment pf;
                  pf_c_commitment pf; pf_s_new_commitment pf; s_new_commitment L; g_new L] /\
    well_formed 5 k (pf_inner_product pf) /\ challenges_sq_packed_new L <> [] /\
    Forall (fun pk => f_sqrt (get_challenge_scalar (F2 := F) pk) <> None) (challenges_sq_packed_new L).
  (** The result of [Proof::verify]; [k] are the coefficients of the polynomial of the public inputs. *)
  Definition verified (K : C) (k : list F) (pf : Proof_ C) (L : Leftovers C)
      (accepted : bool) (L' : Leftovers C) (D : Deferred F) (forks : list nat) : Prop :=
    exists gx y x yn z t t' claims, let ky := eval_at k y in
      powers_fold_to (challenges_sq_packed_new L) x gx /\
      conversation K pf ky gx y x yn z t /\
      five_claims K pf L ky gx y x yn (get_challenge_scalar z) claims /\
      rounds_run 5 t (mo_rounds (pf_inner_product pf)) (challenges_sq_packed_new L') forks t' /\
      (accepted = true <-> forall j claim a, nth_error claims j = Some claim -> nth_error (mo_a (pf_inner_product pf)) j = Some a ->
         claim_passes (mo_g (pf_inner_product pf)) (mo_rounds (pf_inner_product pf)) (challenges_sq_packed_new L') j claim a) /\
      s_new_commitment L' = pf_s_new_commitment pf /\ y_new L' = yn /\ g_new L' = mo_g (pf_inner_product pf) /\
      d_x D = x /\ d_y_old D = y_new L /\ d_y_cur D = y /\ d_y_new D = yn /\ d_ky_opening D = ky /\
      d_tx_positive_opening D = pf_tx_positive_opening pf /\ d_tx_negative_opening D = pf_tx_negative_opening pf /\
      d_sx_cur_opening D = pf_sx_cur_opening pf /\ d_rx_opening D = pf_rx_opening pf /\ d_rxy_opening D = pf_rxy_opening pf /\
      d_challenges_sq_packed_old D = challenges_sq_packed_new L /\ d_gx_old_opening D = gx /\
      d_challenges_sq_packed_new D = challenges_sq_packed_new L' /\
      powers_fold_to (challenges_sq_packed_new L') x (d_b_x D) /\ powers_fold_to (challenges_sq_packed_new L') (fmul x y) (d_b_xy D) /\
      powers_fold_to (challenges_sq_packed_new L') (y_new L) (d_b_y_old D) /\
      powers_fold_to (challenges_sq_packed_new L') y (d_b_y_cur D) /\ powers_fold_to (challenges_sq_packed_new L') yn (d_b_y_new D).
End Checks.
