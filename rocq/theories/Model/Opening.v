(** src/proofs.rs:1236-1507: the inner product argument for several polynomial
    openings, and the transcript. *)
From Coq Require Import ZArith List Bool Arith.
From Verif Require Import Model.FieldTrait Model.Circuits Model.Curve Model.Threads Model.Util Model.Rescue
  Model.Params.
Import ListNotations.
Open Scope nat_scope.
Open Scope list_scope.
Open Scope out_scope.

Section Transcript.
  Context {C : Curve}.

  (** [append_point]: proofs.rs:1484-1494 *)
  Definition append_point (transcript : Rescue (Base C)) (p : C) : Rescue (Base C) :=
    match c_get_xy p with
    | Some (x, y) => absorb (absorb transcript x) y
    | None => absorb (absorb transcript fzero) fzero
    end.
  (** [append_scalar]: proofs.rs:1496-1498 *)
  Definition append_scalar (transcript : Rescue (Base C)) (scalar : Scalar C) : Rescue (Base C) :=
    append_point transcript (c_mul c_one scalar).
End Transcript.
(** [get_challenge]: proofs.rs:1500-1507 *)
Definition get_challenge {F1 : Field} (F2 : Field) (transcript : Rescue F1) : outcome (F2 * Rescue F1) :=
  '(challenge, transcript) <~ out_opt (squeeze transcript) ;;
  let challenge := f_get_lower_128 challenge in
  let challenge := Z.lor challenge (Z.shiftl 1 127) in
  Done (f_from_u128 challenge, transcript).

Section Opening.
  Context {C : Curve}.
  Notation F := (Scalar C).
  Notation transcript_t := (Rescue (Base C)).

  (** [PolynomialOpening]: proofs.rs:1236-1241 *)
  Record PolynomialOpening := mkOpening {
    po_commitment : C; po_opening : F; po_point : F; po_right_edge : bool }.
  (** [InnerProductRound]: proofs.rs:1250-1257; [MultiPolynomialOpening]: 1243-1248 *)
  Record InnerProductRound := mkRound {
    ip_L : list C; ip_R : list C; ip_l : list F; ip_r : list F }.
  Record MultiPolynomialOpening := mkMulti {
    mo_rounds : list InnerProductRound; mo_a : list F; mo_g : C }.

  (** [dummy]: proofs.rs:1260-1267, 1271-1277 *)
  Definition round_dummy : InnerProductRound :=
    mkRound (repeat c_one 5) (repeat c_one 5) (repeat fone 5) (repeat fone 5).
  Definition multi_dummy (params : Params C) : MultiPolynomialOpening :=
    mkMulti (repeat round_dummy (p_k params)) (repeat fone 5) c_one.

  (** What one round sends for one instance *)
  Definition message := (C * C * F * F)%type.
  (** The four [append] calls: proofs.rs:1304-1307, 1407-1410 *)
  Definition append_message (transcript : transcript_t) (m : message) : transcript_t :=
    let '(L, R, l, r) := m in
    append_scalar (append_scalar (append_point (append_point transcript L) R) l) r.

  (** The search [loop] for a challenge with a square root: proofs.rs:1311-1326,
      1418-1432.  Result: the challenge, its square, the packed square, the fork
      value and the number of attempts that failed. *)
  Fixpoint find_fork (fuel : nat) (transcript : transcript_t) (forkvalue : Base C) (failed : nat)
      : outcome (F * F * F * Base C * nat) :=
    match fuel with
    | O => Running
    | S fuel =>
        '(challenge_sq_packed, _) <~ get_challenge F (absorb transcript forkvalue) ;;
        let challenge_sq : F := get_challenge_scalar challenge_sq_packed in
        match f_sqrt challenge_sq with
        | Some challenge => Done (challenge, challenge_sq, challenge_sq_packed, forkvalue, failed)
        | None => find_fork fuel transcript (fadd forkvalue fone) (S failed)
        end
    end.
  (** The part of a round that both sides run once the messages are appended:
      proofs.rs:1309-1334, 1417-1438.  Result: the challenge, its inverse, the
      square, the packed square, the failed attempts and the transcript. *)
  Definition fork_challenge (fuel : nat) (transcript : transcript_t)
      : outcome (F * F * F * F * nat * transcript_t) :=
    '(challenge, challenge_sq, challenge_sq_packed, forkvalue, failed) <~ find_fork fuel transcript fzero 0 ;;
    '(again, transcript) <~ get_challenge F (absorb transcript forkvalue) ;;
    _ <~ out_assert (feqb again challenge_sq_packed) ;;
    challenge_inv <~ out_opt (f_invert challenge) ;;
    Done (challenge, challenge_inv, challenge_sq, challenge_sq_packed, failed, transcript).

  (** The messages of a round for instances [0..m]: [round.L[j]] etc. *)
  Definition round_messages (m : nat) (round : InnerProductRound) : option (list message) :=
    all_some (map (fun j =>
      match nth_error (ip_L round) j, nth_error (ip_R round) j, nth_error (ip_l round) j, nth_error (ip_r round) j with
      | Some L, Some R, Some l, Some r => Some (L, R, l, r)
      | _, _, _, _ => None
      end) (seq 0 m)).

  (** The verifier's rounds: proofs.rs:1302-1346.  State: the commitments, the
      values, the challenges, their inverses, the packed squares and the failed
      attempts, in order.  [forkvalue_u8 += 1] overflows at the 256th failure. *)
  Record VState := mkV {
    v_transcript : transcript_t; v_p : list C; v_v : list F;
    v_challenges : list F; v_challenges_inv : list F; v_packed : list F; v_forks : list nat }.
  Definition verify_round (m : nat) (s : VState) (round : InnerProductRound) : outcome VState :=
    messages <~ out_opt (round_messages m round) ;;
    let transcript := fold_left append_message messages (v_transcript s) in
    '(challenge, challenge_inv, challenge_sq, challenge_sq_packed, failed, transcript) <~
      match fork_challenge 256 transcript with Running => Panicked | o => o end ;;
    let challenge_inv_sq := fsquare challenge_inv in
    Done (mkV transcript
      (map (fun '(p, (L, R, _, _)) =>
         c_add (c_add p (c_mul L challenge_sq)) (c_mul R challenge_inv_sq)) (combine (v_p s) messages))
      (map (fun '(v, (_, _, l, r)) =>
         fadd (fadd v (fmul l challenge_sq)) (fmul r challenge_inv_sq)) (combine (v_v s) messages))
      (v_challenges s ++ [challenge]) (v_challenges_inv s ++ [challenge_inv])
      (v_packed s ++ [challenge_sq_packed]) (v_forks s ++ [failed])).
  Fixpoint verify_rounds (m : nat) (s : VState) (rounds : list InnerProductRound) : outcome VState :=
    match rounds with
    | [] => Done s
    | round :: rounds => s <~ verify_round m s round ;; verify_rounds m s rounds
    end.
  (** The final checks, one instance after the other: proofs.rs:1348-1358 *)
  Fixpoint verify_final (s : VState) (g : C) (instances : list PolynomialOpening) (p : list C) (v a : list F)
      : outcome bool :=
    match instances, p, v with
    | i :: instances, pj :: p, vj :: v =>
        b <~ out_opt (compute_b (po_point i) (v_challenges s) (v_challenges_inv s)) ;;
        match a with
        | [] => Panicked
        | aj :: a =>
            if negb (c_eqb pj (c_mul g aj)) then Done false
            else if negb (feqb vj (fmul aj b)) then Done false
            else verify_final s g instances p v a
        end
    | _, _, _ => Done true
    end.
  (** [verify_proof]: proofs.rs:1279-1359; the transcript is the [&mut] argument *)
  Definition verify_proof (self : MultiPolynomialOpening) (transcript : transcript_t)
      (instances : list PolynomialOpening) (k : nat) : outcome (bool * list F * C * list nat * transcript_t) :=
    _ <~ out_assert (length (mo_rounds self) =? k) ;;
    s <~ verify_rounds (length instances)
           (mkV transcript (map po_commitment instances) (map po_opening instances) [] [] [] [])
           (mo_rounds self) ;;
    b <~ verify_final s (mo_g self) instances (v_p s) (v_v s) (mo_a self) ;;
    Done (b, v_packed s, mo_g self, v_forks s, v_transcript s).

  (** The coefficient vectors of [new_proof]: proofs.rs:1372-1388 *)
  Definition instance_a (k : nat) (right_edge : bool) (coeffs : list F) : option (list F) :=
    if right_edge then
      obind (usize_sub (2 ^ k) (length coeffs)) (fun from => Some (repeat fzero from ++ coeffs))
    else Some (resize coeffs (2 ^ k)).
  (** [cur], [cur * point], ... *)
  Fixpoint instance_b (point cur : F) (n : nat) : list F :=
    match n with O => [] | S n => cur :: instance_b point (fmul cur point) n end.

  (** [this_L], [this_R], [this_l], [this_r]: proofs.rs:1402-1405 *)
  Definition new_message (M : Machine) (l : nat) (generators : list C) (ab : list F * list F) : option message :=
    let '(a, b) := ab in
    match slice_to a l, slice_from a l, slice_to b l, slice_from b l, slice_to generators l, slice_from generators l with
    | Some a_lo, Some a_hi, Some b_lo, Some b_hi, Some g_lo, Some g_hi =>
        match multiexp M a_lo g_hi, multiexp M a_hi g_lo, compute_inner_product a_lo b_hi, compute_inner_product a_hi b_lo with
        | Some L, Some R, Some l, Some r => Some (L, R, l, r)
        | _, _, _, _ => None
        end
    | _, _, _, _, _, _ => None
    end.
  (** [v[i] = (v[i] * c0) + (v[i + l] * c1)] for i in 0..l, then [truncate(l)]:
      proofs.rs:1443-1450 *)
  Definition fold_half (l : nat) (c0 c1 : F) (v : list F) : option (list F) :=
    all_some (map (fun i =>
      match nth_error v i, nth_error v (i + l) with
      | Some lo, Some hi => Some (fadd (fmul lo c0) (fmul hi c1))
      | _, _ => None
      end) (seq 0 l)).

  (** The prover's rounds: proofs.rs:1392-1464.  State: transcript, the pairs
      (a, b), generators, rounds and packed squares so far. *)
  Record PState := mkPS {
    s_transcript : transcript_t; s_ab : list (list F * list F); s_generators : list C;
    s_rounds : list InnerProductRound; s_packed : list F }.
  Definition prove_round (M : Machine) (fuel : nat) (l : nat) (s : PState) : outcome PState :=
    messages <~ out_opt (all_some (map (new_message M l (s_generators s)) (s_ab s))) ;;
    let transcript := fold_left append_message messages (s_transcript s) in
    '(challenge, challenge_inv, _, challenge_sq_packed, _, transcript) <~ fork_challenge fuel transcript ;;
    ab <~ out_opt (all_some (map (fun '(a, b) =>
            match fold_half l challenge challenge_inv a, fold_half l challenge_inv challenge b with
            | Some a, Some b => Some (a, b)
            | _, _ => None
            end) (s_ab s))) ;;
    generators <~ out_opt (parallel_generator_collapse M (s_generators s) challenge challenge_inv) ;;
    Done (mkPS transcript ab (firstn l generators)
      (s_rounds s ++ [mkRound (map (fun '(L, _, _, _) => L) messages) (map (fun '(_, R, _, _) => R) messages)
                              (map (fun '(_, _, l, _) => l) messages) (map (fun '(_, _, _, r) => r) messages)])
      (s_packed s ++ [challenge_sq_packed])).
  Fixpoint prove_rounds (M : Machine) (fuel : nat) (k : nat) (s : PState) : outcome PState :=
    match k with
    | O => Done s
    | S k => s <~ prove_round M fuel (2 ^ k) s ;; prove_rounds M fuel k s
    end.
  (** [new_proof]: proofs.rs:1361-1481 *)
  Definition new_proof (M : Machine) (fuel : nat) (transcript : transcript_t)
      (instances : list (PolynomialOpening * list F)) (generators : list C) (k : nat)
      : outcome (MultiPolynomialOpening * list F * C * transcript_t) :=
    a <~ out_opt (all_some (map (fun '(i, coeffs) => instance_a k (po_right_edge i) coeffs) instances)) ;;
    let b := map (fun '(i, _) => instance_b (po_point i) fone (2 ^ k)) instances in
    s <~ prove_rounds M fuel k (mkPS transcript (combine a b) generators [] []) ;;
    a <~ out_opt (all_some (map (fun '(a, _) => match a with [x] => Some x | _ => None end) (s_ab s))) ;;
    g <~ out_opt (match s_generators s with [g] => Some g | _ => None end) ;;
    Done (mkMulti (s_rounds s) a g, s_packed s, g, s_transcript s).
End Opening.
Arguments PolynomialOpening C : clear implicits.
Arguments InnerProductRound C : clear implicits.
Arguments MultiPolynomialOpening C : clear implicits.
Arguments VState C : clear implicits.
Arguments PState C : clear implicits.
