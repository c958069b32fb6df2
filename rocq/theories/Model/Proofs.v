(** src/proofs.rs:1-995: the proof system.

    One [Machine] is given to all the parallel calls of a function: their
    results do not depend on it (properties C17, C20, C21). *)
From Coq Require Import ZArith List Bool Arith String.
From Verif Require Import Model.FieldTrait Model.Circuits Model.Synthesis Model.Dev Model.Curve
  Model.Threads Model.Util Model.Rescue Model.Params Model.Opening.
Import ListNotations.
Open Scope nat_scope.
Open Scope list_scope.
Open Scope out_scope.
Notation length := List.length.

(** [MAGIC]: proofs.rs:5 *)
Definition MAGIC : Z := 12.

Section Helpers.
  Context {F : Field}.
  (** the squares of the challenges from their packed form, e.g. proofs.rs:61-64 *)
  Definition unpack_challenges (packed : list F) : list F := map get_challenge_scalar packed.
  (** their square roots, [unwrap]ped, e.g. proofs.rs:65-68 *)
  Definition root_challenges (sq : list F) : option (list F) := all_some (map f_sqrt sq).
  (** [Field::batch_invert], its two results *)
  Definition invert_all (v : list F) : option (list F * F) := batch_invert F f_invert v.

  (** [for (index, value) in .. { ky.resize(index + 1, 0); ky[index] = value; }]:
      proofs.rs:490-496, 827-836 *)
  Fixpoint build_ky (ky : list F) (inputs : list (nat * F)) : option (list F) :=
    match inputs with
    | [] => Some ky
    | (index, value) :: inputs =>
        obind (vec_set (resize ky (index + 1)) (S index) value) (fun ky => build_ky ky inputs)
    end.
  (** [for c in .. { *c *= cur; cur = cur * step; }] *)
  Fixpoint scale_geo (l : list F) (cur step : F) : list F :=
    match l with
    | [] => []
    | c :: l => fmul c cur :: scale_geo l (fmul cur step) step
    end.
  (** [for c in .. { *c = *c - p; *c = *c - q; p *= y; q *= yinv; }] *)
  Fixpoint sub_geo (l : list F) (p q y yinv : F) : list F :=
    match l with
    | [] => []
    | c :: l => fsub (fsub c p) q :: sub_geo l (fmul p y) (fmul q yinv) y yinv
    end.
  (** [for (a, b) in px.iter_mut().zip(poly.iter()) { *a += b; }] *)
  Fixpoint add_zip (px poly : list F) : list F :=
    match px, poly with
    | a :: px, b :: poly => fadd a b :: add_zip px poly
    | _, _ => px
    end.
  Definition mul_px (px : list F) (z : F) : list F := map (fun a => fmul a z) px.

  (** r'(X, y): the polynomials of proofs.rs:525-560.  [rx] and [sx_cur] are the
      coefficient vectors of r(X, 1) and s(X, y). *)
  Definition prime_poly (n : nat) (rx sx_cur : list F) (y y_inv : F) : option (list F) :=
    let yn := pow F y (exp64 n) in
    let rxy := rev (scale_geo (rev rx) yn y_inv) in
    let s_primex := mul_px sx_cur yn in
    obind (slice_to s_primex (2 * n + 1)) (fun s_lo =>
    obind (slice_from s_primex (2 * n + 1)) (fun s_hi =>
    if length s_hi =? n then
      let s_primex := s_lo ++ sub_geo s_hi y y_inv y y_inv in
      let r_primex := resize rxy (4 * n + 1) in
      obind (slice_to r_primex n) (fun r_lo =>
      obind (slice_from r_primex n) (fun r_hi =>
      if length r_hi =? length s_primex then Some (r_lo ++ add_zip r_hi s_primex) else None))
    else None)).
End Helpers.

(** [Leftovers]: proofs.rs:7-17 *)
Section Leftovers.
  Context {C : Curve}.
  Record Leftovers := mkLeft {
    s_new_commitment : C; y_new : Scalar C; g_new : C; challenges_sq_packed_new : list (Scalar C) }.

  (** [to_bytes]: proofs.rs:20-53 *)
  Definition point_bytes (p : C) : list Z :=
    match c_get_xy p with
    | Some (x, y) => f_to_bytes x ++ f_to_bytes y
    | None => f_to_bytes (fzero : Base C) ++ f_to_bytes (fzero : Base C)
    end.
  Definition leftovers_to_bytes (self : Leftovers) : list Z :=
    point_bytes (s_new_commitment self) ++ firstn 16 (f_to_bytes (y_new self)) ++
    point_bytes (g_new self) ++
    flat_map (fun challenge => firstn 16 (f_to_bytes challenge)) (challenges_sq_packed_new self).

  (** [dummy]: proofs.rs:57-80 *)
  Definition leftovers_dummy (M : Machine) (params : Params C) : option Leftovers :=
    let packed := repeat (f_from_u64 MAGIC : Scalar C) (p_k params) in
    let sq := unpack_challenges packed in
    obind (root_challenges sq) (fun challenges =>
    obind (invert_all challenges) (fun '(_, allinv) =>
    obind (compute_g_for_inner_product M (p_generators params) sq allinv) (fun g =>
    Some (mkLeft c_zero fzero g packed)))).

  (** [verify]: proofs.rs:83-106 *)
  Definition leftovers_verify (M : Machine) (self : Leftovers) (params : Params C)
      (circuit : Var -> CS (Scalar C) unit) : outcome (res bool) :=
    sx <~? compute_sx params circuit (y_new self) ;;
    s <~ out_opt (commit M params sx false) ;;
    _ <~ out_assert (length (challenges_sq_packed_new self) =? p_k params) ;;
    let sq := unpack_challenges (challenges_sq_packed_new self) in
    roots <~ out_opt (root_challenges sq) ;;
    let allinv := fold_left (fun allinv c => fmul allinv c) roots fone in
    allinv <~ out_opt (f_invert allinv) ;;
    g <~ out_opt (compute_g_for_inner_product M (p_generators params) sq allinv) ;;
    Done (Ok (c_eqb g (g_new self) && c_eqb s (s_new_commitment self))).
End Leftovers.
Arguments Leftovers C : clear implicits.

(** [Deferred]: proofs.rs:109-141 *)
Section Deferred.
  Context {F : Field}.
  Record Deferred := mkDeferred {
    d_x : F; d_y_old : F; d_y_cur : F; d_y_new : F; d_ky_opening : F;
    d_tx_positive_opening : F; d_tx_negative_opening : F; d_sx_cur_opening : F;
    d_rx_opening : F; d_rxy_opening : F;
    d_challenges_sq_packed_old : list F; d_gx_old_opening : F;
    d_challenges_sq_packed_new : list F;
    d_b_x : F; d_b_xy : F; d_b_y_old : F; d_b_y_cur : F; d_b_y_new : F }.

  (** [to_bytes]: proofs.rs:144-172 *)
  Definition deferred_to_bytes (self : Deferred) : list Z :=
    let half (x : F) := firstn 16 (f_to_bytes x) in
    half (d_x self) ++ half (d_y_old self) ++ half (d_y_cur self) ++ half (d_y_new self) ++
    f_to_bytes (d_ky_opening self) ++ f_to_bytes (d_tx_positive_opening self) ++
    f_to_bytes (d_tx_negative_opening self) ++ f_to_bytes (d_sx_cur_opening self) ++
    f_to_bytes (d_rx_opening self) ++ f_to_bytes (d_rxy_opening self) ++
    flat_map half (d_challenges_sq_packed_old self) ++ f_to_bytes (d_gx_old_opening self) ++
    flat_map half (d_challenges_sq_packed_new self) ++
    f_to_bytes (d_b_x self) ++ f_to_bytes (d_b_xy self) ++ f_to_bytes (d_b_y_old self) ++
    f_to_bytes (d_b_y_cur self) ++ f_to_bytes (d_b_y_new self).

  (** [dummy]: proofs.rs:174-208 *)
  Definition deferred_dummy (k : nat) : option Deferred :=
    let packed := repeat (f_from_u64 MAGIC : F) k in
    let sq := unpack_challenges packed in
    obind (root_challenges sq) (fun challenges =>
    obind (invert_all challenges) (fun '(challenges_inv, _) =>
    obind (compute_b fone challenges challenges_inv) (fun b_one =>
    Some (mkDeferred fone fone fone fone fzero fzero fzero fzero fzero fzero packed b_one packed
                     b_one b_one b_one b_one b_one)))).

  (** [compute_thing]: proofs.rs:243-252 *)
  Definition compute_thing (x : F) (k : nat) : F :=
    fst (fold_left (fun '(acc, cur) (_ : nat) =>
      let tmp := fmul acc cur in (fadd acc tmp, fsquare cur)) (seq 0 k) (x, x)).
  (** [compute]: proofs.rs:210-264 *)
  Definition deferred_compute (self : Deferred) (k : nat) : option (F * F) :=
    if feqb (d_x self) fzero then None
    else if feqb (d_y_cur self) fzero then None
    else
      let d := 2 ^ k in
      let n := d / 4 in
      obind (f_invert (d_x self)) (fun xinv =>
      obind (f_invert (d_y_cur self)) (fun yinv =>
      let xyinv := fmul xinv yinv in
      let xinvn := pow F xinv (exp64 n) in
      let xinvd := fsquare (fsquare xinvn) in
      let yn := pow F (d_y_cur self) (exp64 n) in
      let xn := pow F (d_x self) (exp64 n) in
      obind (usize_sub (3 * n) 1) (fun n31 =>
      let xyinvn31 := pow F xyinv (exp64 n31) in
      let xinvn31 := fmul (fmul (fsquare xinvn) xinvn) (d_x self) in
      let rhs := fmul (d_tx_positive_opening self) (d_x self) in
      let rhs := fadd rhs (fmul (d_tx_negative_opening self) xinvd) in
      let lhs := fmul (d_sx_cur_opening self) xinvn in
      let lhs := fmul lhs yn in
      obind (usize_sub k 2) (fun k2 =>
      let thing := compute_thing (fmul (d_x self) (d_y_cur self)) k2 in
      let thing := fadd thing (compute_thing (fmul (d_x self) yinv) k2) in
      let thing := fmul thing xn in
      let lhs := fsub lhs thing in
      let lhs := fadd lhs (fmul (d_rxy_opening self) xyinvn31) in
      let lhs := fmul lhs (fmul (d_rx_opening self) xinvn31) in
      let ky := fmul (d_ky_opening self) yn in
      let lhs := fsub lhs ky in
      Some (lhs, rhs))))).

  (** [verify]: proofs.rs:266-312 *)
  Definition deferred_verify (self : Deferred) (k : nat) : option bool :=
    obind (deferred_compute self k) (fun '(lhs, rhs) =>
    obind (root_challenges (unpack_challenges (d_challenges_sq_packed_old self))) (fun old =>
    obind (invert_all old) (fun '(old_inv, _) =>
    obind (compute_b (d_x self) old old_inv) (fun correct_gx_old_opening =>
    obind (root_challenges (unpack_challenges (d_challenges_sq_packed_new self))) (fun challenges =>
    obind (invert_all challenges) (fun '(challenges_inv, _) =>
    obind (compute_b (d_x self) challenges challenges_inv) (fun b_x =>
    obind (compute_b (fmul (d_x self) (d_y_cur self)) challenges challenges_inv) (fun b_xy =>
    obind (compute_b (d_y_old self) challenges challenges_inv) (fun b_y_old =>
    obind (compute_b (d_y_cur self) challenges challenges_inv) (fun b_y_cur =>
    obind (compute_b (d_y_new self) challenges challenges_inv) (fun b_y_new =>
    Some (feqb lhs rhs && feqb correct_gx_old_opening (d_gx_old_opening self) &&
          feqb (d_b_x self) b_x && feqb (d_b_xy self) b_xy && feqb (d_b_y_old self) b_y_old &&
          feqb (d_b_y_cur self) b_y_cur && feqb (d_b_y_new self) b_y_new)))))))))))).
End Deferred.
Arguments Deferred F : clear implicits.

(** The prover's backend: proofs.rs:344-441 *)
Section Prover.
  Context {F : Field}.
  Record PAssignment := mkPA {
    pa_n : nat; pa_q : nat; pa_a : list F; pa_b : list F; pa_c : list F; pa_inputs : list (nat * F) }.
  Definition pa0 : PAssignment := mkPA 0 0 [] [] [] [].
  Definition pa_get_var (s : PAssignment) (v : Var) : option (option F) :=
    option_map Some (var_get (pa_a s) (pa_b s) (pa_c s) v).
  Definition pa_set_var (s : PAssignment) (_ : option string) (v : Var) (value : res F)
    : option (PAssignment * bool * res unit) :=
    match value with
    | Err e => Some (s, true, Err e)
    | Ok x =>
        match v with
        | VA index => obind (vec_set (pa_a s) index x) (fun a =>
            Some (mkPA (pa_n s) (pa_q s) a (pa_b s) (pa_c s) (pa_inputs s), true, Ok tt))
        | VB index => obind (vec_set (pa_b s) index x) (fun b =>
            Some (mkPA (pa_n s) (pa_q s) (pa_a s) b (pa_c s) (pa_inputs s), true, Ok tt))
        | VC index => obind (vec_set (pa_c s) index x) (fun c =>
            Some (mkPA (pa_n s) (pa_q s) (pa_a s) (pa_b s) c (pa_inputs s), true, Ok tt))
        end
    end.
  Definition pa_new_gate (s : PAssignment) (_ : option string) : option PAssignment :=
    Some (mkPA (S (pa_n s)) (pa_q s) (pa_a s ++ [fzero]) (pa_b s ++ [fzero]) (pa_c s ++ [fzero]) (pa_inputs s)).
  Definition pa_new_lc (s : PAssignment) (_ : string) : option (PAssignment * nat) :=
    Some (mkPA (pa_n s) (S (pa_q s)) (pa_a s) (pa_b s) (pa_c s) (pa_inputs s), S (pa_q s)).
  Definition pa_new_k (s : PAssignment) (index : nat) (value : option F) : option (PAssignment * res unit) :=
    match value with
    | None => Some (s, Err AssignmentMissing)
    | Some v => Some (mkPA (pa_n s) (pa_q s) (pa_a s) (pa_b s) (pa_c s) (pa_inputs s ++ [(index, v)]), Ok tt)
    end.
  Definition pa_backend : Backend F := {|
    BState := PAssignment; BIndex := nat;
    b_get_var := pa_get_var; b_set_var := pa_set_var;
    b_new_multiplication_gate := pa_new_gate;
    b_new_linear_constraint := pa_new_lc;
    b_insert_coefficient := default_insert_coefficient;
    b_new_k_power := pa_new_k;
    b_push_namespace := default_push_namespace; b_pop_namespace := default_pop_namespace |}.

  (** The verifier's backend [InputMap]: proofs.rs:792-818 *)
  Definition im_new_lc (s : list nat) (_ : string) : option (list nat * unit) := Some (s, tt).
  Definition im_new_k (s : list nat) (index : nat) (_ : option F) : option (list nat * res unit) :=
    Some (s ++ [index], Ok tt).
  Definition inputmap_backend : Backend F := {|
    BState := list nat; BIndex := unit;
    b_get_var := default_get_var; b_set_var := default_set_var;
    b_new_multiplication_gate := default_new_multiplication_gate;
    b_new_linear_constraint := im_new_lc;
    b_insert_coefficient := default_insert_coefficient;
    b_new_k_power := im_new_k;
    b_push_namespace := default_push_namespace; b_pop_namespace := default_pop_namespace |}.
End Prover.
Arguments PAssignment F : clear implicits. Arguments pa_backend F : clear implicits.
Arguments inputmap_backend F : clear implicits.

Section Proof_.
  Context {C : Curve}.
  Notation F := (Scalar C).

  (** [Proof]: proofs.rs:315-336 *)
  Record Proof_ := mkProof {
    pf_r_commitment : C; pf_s_cur_commitment : C; pf_t_positive_commitment : C;
    pf_t_negative_commitment : C; pf_c_commitment : C; pf_s_new_commitment : C;
    pf_rx_opening : F; pf_rxy_opening : F; pf_sx_old_opening : F; pf_sx_cur_opening : F;
    pf_tx_positive_opening : F; pf_tx_negative_opening : F; pf_sx_new_opening : F;
    pf_inner_product : MultiPolynomialOpening C }.

  (** [P] and [p]: proofs.rs:643-657, 892-906 *)
  Definition combine_commitments (z : F) (first : C) (others : list C) : C :=
    fold_left (fun acc c => c_add (c_mul acc z) c) others first.
  Definition combine_openings (z : F) (first : F) (others : list F) : F :=
    fold_left (fun acc c => fadd (fmul acc z) c) others first.

  (** [Proof::new]: proofs.rs:339-782.  [fuel] bounds each of the searches of
      [new_proof]. *)
  Definition proof_new (M : Machine) (fuel : nat) (params : Params C) (circuit : Var -> CS F unit)
      (old_leftovers : Leftovers C) : outcome (res (Proof_ * Leftovers C)) :=
    let n := p_n params in
    assignment <~? synthesize (pa_backend F) pa0 circuit ;;
    _ <~ out_assert (pa_n assignment <? n) ;;
    _ <~ out_assert (pa_q assignment <? p_d params) ;;
    let a := resize (pa_a assignment) n in
    let b := resize (pa_b assignment) n in
    let c := resize (pa_c assignment) n in
    let transcript := rescue_new in
    let y_old := y_new old_leftovers in
    sx_old <~? compute_sx params circuit y_old ;;
    let s_old_commitment := s_new_commitment old_leftovers in
    let challenges_sq_old := unpack_challenges (challenges_sq_packed_new old_leftovers) in
    challenges_old <~ out_opt (root_challenges challenges_sq_old) ;;
    '(challenges_old_inv, allinv_old) <~ out_opt (invert_all challenges_old) ;;
    let gx_old := compute_g_coeffs_for_inner_product challenges_sq_old allinv_old in
    let g_old_commitment := g_new old_leftovers in
    ky <~ out_opt (build_ky [fzero] (pa_inputs assignment)) ;;
    k_commitment <~ out_opt (commit M params ky false) ;;
    let transcript := append_point transcript k_commitment in
    let rx := rev c ++ rev b ++ [fzero] ++ a in
    _ <~ out_assert (length rx =? 3 * n + 1) ;;
    r_commitment <~ out_opt (commit M params rx true) ;;
    let transcript := append_point transcript r_commitment in
    '(y_cur, transcript) <~ get_challenge F transcript ;;
    y_cur_inv <~ out_opt (f_invert y_cur) ;;
    sx_cur <~? compute_sx params circuit y_cur ;;
    s_cur_commitment <~ out_opt (commit M params sx_cur false) ;;
    let transcript := append_point transcript s_cur_commitment in
    r_primex <~ out_opt (prime_poly n rx sx_cur y_cur y_cur_inv) ;;
    tx <~ out_opt (multiply_polynomials M rx r_primex) ;;
    _ <~ out_assert (length tx =? 7 * n + 1) ;;
    tx_positive <~ out_opt (slice_from tx (4 * n + 1)) ;;
    t_positive_commitment <~ out_opt (commit M params tx_positive false) ;;
    let transcript := append_point transcript t_positive_commitment in
    tx_negative <~ out_opt (slice_to tx (4 * n)) ;;
    t_negative_commitment <~ out_opt (commit M params tx_negative false) ;;
    _ <~ out_assert (length (p_generators params) =? 4 * n) ;;
    let transcript := append_point transcript t_negative_commitment in
    '(x, transcript) <~ get_challenge F transcript ;;
    sy <~? compute_sy params circuit x n (pa_q assignment) ;;
    let sy := mul_px sy (pow F x (exp64 n)) in
    c_commitment <~ out_opt (commit M params sy false) ;;
    let transcript := append_point transcript c_commitment in
    '(y_new, transcript) <~ get_challenge F transcript ;;
    sx_new <~? compute_sx params circuit y_new ;;
    s_new_commitment <~ out_opt (commit M params sx_new false) ;;
    let transcript := append_point transcript s_new_commitment in
    ky_opening <~ out_opt (compute_opening params ky y_cur false) ;;
    tx_constant <~ out_opt (nth_error tx (4 * n)) ;;
    _ <~ out_assert (feqb tx_constant (fmul ky_opening (pow F y_cur (exp64 n)))) ;;
    let transcript := append_scalar transcript ky_opening in
    rx_opening <~ out_opt (compute_opening params rx x true) ;;
    let transcript := append_scalar transcript rx_opening in
    rxy_opening <~ out_opt (compute_opening params rx (fmul x y_cur) true) ;;
    let transcript := append_scalar transcript rxy_opening in
    sx_old_opening <~ out_opt (compute_opening params sx_old x false) ;;
    let transcript := append_scalar transcript sx_old_opening in
    sx_cur_opening <~ out_opt (compute_opening params sx_cur x false) ;;
    let transcript := append_scalar transcript sx_cur_opening in
    tx_positive_opening <~ out_opt (compute_opening params tx_positive x false) ;;
    let transcript := append_scalar transcript tx_positive_opening in
    tx_negative_opening <~ out_opt (compute_opening params tx_negative x false) ;;
    let transcript := append_scalar transcript tx_negative_opening in
    sx_new_opening <~ out_opt (compute_opening params sx_new x false) ;;
    let transcript := append_scalar transcript sx_new_opening in
    gx_old_opening <~ out_opt (compute_opening params gx_old x false) ;;
    b_old <~ out_opt (compute_b x challenges_old challenges_old_inv) ;;
    _ <~ out_assert (feqb gx_old_opening b_old) ;;
    let transcript := append_scalar transcript gx_old_opening in
    '(z, transcript) <~ get_challenge F transcript ;;
    let z : F := get_challenge_scalar z in
    let p_commitment := combine_commitments z r_commitment
      [s_old_commitment; s_cur_commitment; t_positive_commitment; t_negative_commitment;
       s_new_commitment; g_old_commitment] in
    let p_opening := combine_openings z rx_opening
      [sx_old_opening; sx_cur_opening; tx_positive_opening; tx_negative_opening;
       sx_new_opening; gx_old_opening] in
    from <~ out_opt (usize_sub (p_d params) (length rx)) ;;
    let px := repeat fzero from ++ rx in
    let px := fold_left (fun px poly => add_zip (mul_px px z) poly)
                [sx_old; sx_cur; tx_positive; tx_negative; sx_new; gx_old] px in
    let q_commitment := c_add c_commitment (c_mul k_commitment z) in
    let qy_opening := fadd sx_cur_opening (fmul ky_opening z) in
    _ <~ out_assert (length ky <=? length sy) ;;
    let qy := add_zip sy (mul_px ky z) in
    '(inner_product, challenges_sq_packed_new, g_new, _) <~ new_proof M fuel transcript
      [(mkOpening p_commitment p_opening x false, px);
       (mkOpening r_commitment rxy_opening (fmul x y_cur) true, rx);
       (mkOpening c_commitment sx_old_opening y_old false, sy);
       (mkOpening q_commitment qy_opening y_cur false, qy);
       (mkOpening c_commitment sx_new_opening y_new false, sy)]
      (p_generators params) (p_k params) ;;
    Done (Ok (mkProof r_commitment s_cur_commitment t_positive_commitment t_negative_commitment
                c_commitment s_new_commitment rx_opening rxy_opening sx_old_opening sx_cur_opening
                tx_positive_opening tx_negative_opening sx_new_opening inner_product,
              mkLeft s_new_commitment y_new g_new challenges_sq_packed_new)).

  (** [Proof::verify]: proofs.rs:784-994 *)
  Definition proof_verify (M : Machine) (self : Proof_) (leftovers : Leftovers C) (params : Params C)
      (circuit : Var -> CS F unit) (inputs : list F) (k_commitment : option C)
      : outcome (res (bool * Leftovers C * Deferred F * list nat)) :=
    inputmap <~? synthesize (inputmap_backend F) [] circuit ;;
    expected <~ out_opt (usize_sub (length inputmap) 1) ;;
    _ <~ out_assert (length inputs =? expected) ;;
    let transcript := rescue_new in
    ky <~ out_opt (build_ky [fzero] (combine inputmap (fone :: inputs))) ;;
    k_commitment <~ match k_commitment with
                    | Some c => Done c
                    | None => out_opt (commit M params ky false)
                    end ;;
    let transcript := append_point transcript k_commitment in
    let transcript := append_point transcript (pf_r_commitment self) in
    '(y_cur, transcript) <~ get_challenge F transcript ;;
    let transcript := append_point transcript (pf_s_cur_commitment self) in
    let transcript := append_point transcript (pf_t_positive_commitment self) in
    let transcript := append_point transcript (pf_t_negative_commitment self) in
    '(x, transcript) <~ get_challenge F transcript ;;
    let transcript := append_point transcript (pf_c_commitment self) in
    '(y_new', transcript) <~ get_challenge F transcript ;;
    let transcript := append_point transcript (pf_s_new_commitment self) in
    ky_opening <~ out_opt (compute_opening params ky y_cur false) ;;
    let transcript := append_scalar transcript ky_opening in
    let transcript := append_scalar transcript (pf_rx_opening self) in
    let transcript := append_scalar transcript (pf_rxy_opening self) in
    let transcript := append_scalar transcript (pf_sx_old_opening self) in
    let transcript := append_scalar transcript (pf_sx_cur_opening self) in
    let transcript := append_scalar transcript (pf_tx_positive_opening self) in
    let transcript := append_scalar transcript (pf_tx_negative_opening self) in
    let transcript := append_scalar transcript (pf_sx_new_opening self) in
    let challenges_sq_old := unpack_challenges (challenges_sq_packed_new leftovers) in
    challenges_old <~ out_opt (root_challenges challenges_sq_old) ;;
    '(challenges_old_inv, _) <~ out_opt (invert_all challenges_old) ;;
    gx_old_opening <~ out_opt (compute_b x challenges_old challenges_old_inv) ;;
    let transcript := append_scalar transcript gx_old_opening in
    '(z, transcript) <~ get_challenge F transcript ;;
    let z : F := get_challenge_scalar z in
    let p_commitment := combine_commitments z (pf_r_commitment self)
      [s_new_commitment leftovers; pf_s_cur_commitment self; pf_t_positive_commitment self;
       pf_t_negative_commitment self; pf_s_new_commitment self; g_new leftovers] in
    let p_opening := combine_openings z (pf_rx_opening self)
      [pf_sx_old_opening self; pf_sx_cur_opening self; pf_tx_positive_opening self;
       pf_tx_negative_opening self; pf_sx_new_opening self; gx_old_opening] in
    let q_commitment := c_add (pf_c_commitment self) (c_mul k_commitment z) in
    let qy_opening := fadd (pf_sx_cur_opening self) (fmul ky_opening z) in
    '(inner_product_satisfied, packed_new, g_new', forkvalues, _) <~
      verify_proof (pf_inner_product self) transcript
        [mkOpening p_commitment p_opening x false;
         mkOpening (pf_r_commitment self) (pf_rxy_opening self) (fmul x y_cur) true;
         mkOpening (pf_c_commitment self) (pf_sx_old_opening self) (y_new leftovers) false;
         mkOpening q_commitment qy_opening y_cur false;
         mkOpening (pf_c_commitment self) (pf_sx_new_opening self) y_new' false]
        (p_k params) ;;
    let metadata := mkLeft (pf_s_new_commitment self) y_new' g_new' packed_new in
    challenges_new <~ out_opt (root_challenges (unpack_challenges packed_new)) ;;
    '(challenges_new_inv, _) <~ out_opt (invert_all challenges_new) ;;
    b_x <~ out_opt (compute_b x challenges_new challenges_new_inv) ;;
    b_xy <~ out_opt (compute_b (fmul x y_cur) challenges_new challenges_new_inv) ;;
    b_y_old <~ out_opt (compute_b (y_new leftovers) challenges_new challenges_new_inv) ;;
    b_y_cur <~ out_opt (compute_b y_cur challenges_new challenges_new_inv) ;;
    b_y_new <~ out_opt (compute_b y_new' challenges_new challenges_new_inv) ;;
    let deferred := mkDeferred x (y_new leftovers) y_cur y_new' ky_opening
      (pf_tx_positive_opening self) (pf_tx_negative_opening self) (pf_sx_cur_opening self)
      (pf_rx_opening self) (pf_rxy_opening self)
      (challenges_sq_packed_new leftovers) gx_old_opening packed_new b_x b_xy b_y_old b_y_cur b_y_new in
    Done (Ok (inner_product_satisfied, metadata, deferred, forkvalues)).
End Proof_.
Arguments Proof_ C : clear implicits.
