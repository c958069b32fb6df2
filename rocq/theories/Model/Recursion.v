(** src/recursion.rs.

    [VerificationCircuit<'a, C1, C2, CS>] is a circuit over C1::Scalar = C2::Base,
    which is [F] below; [C] is C2.  Of C1 it only uses the bytes of the leftovers
    it is given. *)
From Coq Require Import String List Bool Arith ZArith.
From Verif Require Import Model.FieldTrait Model.Circuits Model.Num Model.Boolean Model.Curve Model.Threads
  Model.Util Model.Rescue Model.RescueGadget Model.Ecc Model.Params Model.Opening Model.Proofs.
Import ListNotations.
Open Scope string_scope.
Open Scope list_scope.
Open Scope nat_scope.
Open Scope cs_scope.
Notation length := List.length.

Section Helpers.
  Context {F : Field}.
  (** [CS::ONE] *)
  Variable one : Var.
  Local Notation req := ok_or_missing.
  Local Notation "x <? m ; f" := (rbind m (fun x => f)) (at level 61, m at next level, right associativity).

  (** [From<AllocatedBit> for AllocatedNum]: num.rs:327-336 *)
  Definition num_from_bit (b : AllocatedBit) : AllocatedNum F :=
    mkNum (option_map (fun v : bool => if v then fone else fzero) (bit_value b)) (bit_var b).

  (** [&bits[from..from + len]] *)
  Definition bits_at (bits : list AllocatedBit) (from len : nat) : CS F (list AllocatedBit) :=
    unwrap (if from + len <=? length bits then Some (firstn len (skipn from bits)) else None).

  (** the bits of bytes, least significant first: [(byte >> i) & 1 == 1] for [i] in
      [0..8], e.g. recursion.rs:1416-1418 *)
  Definition bytes_bits (bytes : list Z) : list bool := flat_map byte_bits bytes.

  (** [num_equal_unless_base_case]: recursion.rs:541-570 *)
  Definition num_equal_unless_base_case (base_case : AllocatedBit) (lhs rhs : Combination F) : CS F unit :=
    let not_basecase := option_map (fun v => f_from_bool (negb v) : F) (bit_value base_case) in
    '(a, b, c, _) <- multiply "num_equal_unless_base_case"
      (lhs <? req (comb_value lhs) ; rhs <? req (comb_value rhs) ; nb <? req not_basecase ;
       Ok (fsub lhs rhs, nb, fzero)) ;;
    let lhs_lc := comb_lc one lhs in
    let rhs_lc := comb_lc one rhs in
    enforce_zero (lc_add_lc (lc_sub_lc (lc_from a) lhs_lc) rhs_lc) ;;;
    enforce_zero (lc_add_v (lc_sub_v (lc_from b) one) (bit_var base_case)) ;;;
    enforce_zero (lc_from c) ;;;
    ret tt.

  (** the combination of up to 250 bits: recursion.rs:585-595 *)
  Fixpoint pack_bits (comb : Combination F) (coeff : F) (bits : list AllocatedBit) : Combination F :=
    match bits with
    | [] => comb
    | b :: bits => pack_bits (comb_add_cn comb (CFull coeff) (n_from (num_from_bit b))) (fadd coeff coeff) bits
    end.
  (** the [while] loop of [equal_unless_base_case]: recursion.rs:581-606.  Each
      iteration removes at least one bit, so the length is fuel enough. *)
  Fixpoint equal_chunks (fuel : nat) (base_case : AllocatedBit) (lhs rhs : list AllocatedBit) : CS F unit :=
    match fuel with
    | O => ret tt
    | S fuel =>
        match lhs with
        | [] => ret tt
        | _ =>
            let n := Nat.min 250 (Nat.min (length lhs) (length rhs)) in
            namespace "check" (num_equal_unless_base_case base_case
              (pack_bits comb_zero fone (firstn n lhs)) (pack_bits comb_zero fone (firstn n rhs))) ;;;
            equal_chunks fuel base_case (skipn n lhs) (skipn n rhs)
        end
    end.
  (** [equal_unless_base_case]: recursion.rs:572-633 *)
  Definition equal_unless_base_case (base_case : AllocatedBit) (lhs rhs : list AllocatedBit) : CS F unit :=
    assert_ (length lhs =? length rhs) ;;;
    equal_chunks (length lhs) base_case lhs rhs.

  (** the value of [obtain_scalar_from_bits]: recursion.rs:640-651; a bit without a
      value counts as 0 *)
  Fixpoint bits_value (value cur : F) (bits : list AllocatedBit) : F :=
    match bits with
    | [] => value
    | b :: bits =>
        bits_value (match bit_value b with Some true => fadd value cur | _ => value end) (fadd cur cur) bits
    end.
  (** [obtain_scalar_from_bits]: recursion.rs:635-662 *)
  Definition obtain_scalar_from_bits (bits : list AllocatedBit) : CS F (AllocatedNum F) :=
    newnum <- namespace "scalar" (num_alloc (Ok (bits_value fzero fone bits))) ;;
    enforce_zero (lc_sub_v (bits_lc lc_zero fone bits) (num_var newnum)) ;;;
    ret newnum.

  (** [witness_bits_from_fe]: recursion.rs:664-687 *)
  Definition witness_bits_from_fe {F2 : Field} (value : F2) : CS F (list AllocatedBit) :=
    mapM (fun b => namespace "bit" (bit_alloc (Ok b))) (fe_bits value).

  (** one round of [get_challenge_scalar]: recursion.rs:1334-1376 *)
  Definition challenge_step (bits : list AllocatedBit) (acc : Combination F) (i : nat) : CS F (Combination F) :=
    let should_negate := nth (i * 2) bits (mkBit None one) in
    let should_endo := nth (i * 2 + 1) bits (mkBit None one) in
    let acc := comb_scale acc (f_from_u128 2) in
    let acc := comb_add acc (comb_from_num (num_one one)) in
    let acc := comb_add acc (comb_scale (comb_from_num (num_from_bit should_negate)) (fneg (f_from_u128 2))) in
    '(a, b, c, st) <- multiply "should_endo round"
      (v <? req (comb_value acc) ; e <? req (bit_value should_endo) ;
       let e := if e then fone else fzero in
       let lhs := fsub (fmul e f_BETA) e in Ok (lhs, v, fmul lhs v)) ;;
    let outval := option_map (fun '(_, _, out) => out) st in
    enforce_zero (lc_sub_cv (lc_add_v (lc_from a) (bit_var should_endo)) (CFull f_BETA) (bit_var should_endo)) ;;;
    enforce_zero (lc_sub_lc (lc_from b) (comb_lc one acc)) ;;;
    ret (comb_add acc (comb_from (n_from (mkNum outval c)))).
  (** [get_challenge_scalar]: recursion.rs:1325-1389 *)
  Definition g_get_challenge_scalar (bits : list AllocatedBit) : CS F (AllocatedNum F) :=
    assert_ (length bits =? 128) ;;;
    acc <- foldM (challenge_step bits) (seq 1 63)
             (comb_from (n_constant (fadd (fadd fone fone) fone))) ;;
    newacc <- namespace "final acc value" (num_alloc (req (comb_value acc))) ;;
    enforce_zero (lc_sub_lc (lc_from (num_var newacc)) (comb_lc one acc)) ;;;
    ret newacc.

  (** [get_challenge]: recursion.rs:1391-1404 *)
  Definition g_get_challenge (transcript : RescueGadget F) : CS F (list AllocatedBit * RescueGadget F) :=
    '(num, transcript) <- namespace "squeeze" (gadget_squeeze one transcript) ;;
    bits <- namespace "unpack" (unpack_fe one (n_from num)) ;;
    ret (firstn 127 bits ++ [bit_one one], transcript).

  (** [compute_b]: recursion.rs:498-539.  The lists are given in reverse. *)
  Fixpoint g_compute_b_rev (x : AllocatedNum F) (challenges challenges_inv : list (AllocatedNum F)) : CS F (Combination F) :=
    match challenges, challenges_inv with
    | [c], [ci] =>
        tmp <- namespace "x * challenges[-1]" (num_mul x c) ;;
        ret (comb_add_num (comb_from_num ci) tmp)
    | c :: challenges, ci :: challenges_inv =>
        tmp <- namespace "x * challenges[-1]" (num_mul x c) ;;
        let tmp := comb_add_num (comb_from_num ci) tmp in
        x2 <- namespace "x^2" (num_mul x x) ;;
        rest <- namespace "b layer" (g_compute_b_rev x2 challenges challenges_inv) ;;
        b <- comb_mul one rest tmp ;;
        ret (comb_from_num b)
    | _, _ => Panic
    end.
  Definition g_compute_b (x : AllocatedNum F) (challenges challenges_inv : list (AllocatedNum F)) : CS F (Combination F) :=
    assert_ (1 <=? length challenges) ;;;
    assert_ (length challenges =? length challenges_inv) ;;;
    g_compute_b_rev x (rev challenges) (rev challenges_inv).

  (** [compute_thing]: recursion.rs:377-396 *)
  Definition g_compute_thing (x : AllocatedNum F) (k : nat) : CS F (Combination F) :=
    '(acc, _) <- foldM (fun '(acc, cur) (_ : nat) =>
        tmp <- namespace "extend polynomial" (comb_mul one acc (comb_from_num cur)) ;;
        cur <- namespace "square cur" (num_mul cur cur) ;;
        ret (comb_add_num acc tmp, cur)) (seq 0 k) (comb_from_num x, x) ;;
    ret acc.

  (** [for i in 0..nk { x = x.mul(&x) }], e.g. recursion.rs:318-325 *)
  Definition square_times (x : AllocatedNum F) (n : nat) : CS F (AllocatedNum F) :=
    foldM (fun x (_ : nat) => namespace "x^2^i" (num_mul x x)) (seq 0 n) x.

  (** [deferred = &deferred[len..]] after [&deferred[0..len]] *)
  Definition cut (len : nat) (bits : list AllocatedBit) : CS F (list AllocatedBit * list AllocatedBit) :=
    unwrap (if len <=? length bits then Some (firstn len bits, skipn len bits) else None).
  Definition cut_scalar (s : string) (len : nat) (bits : list AllocatedBit) : CS F (AllocatedNum F * list AllocatedBit) :=
    '(here, bits) <- cut len bits ;;
    n <- namespace s (obtain_scalar_from_bits here) ;;
    ret (n, bits).
  Fixpoint cut_challenges (k : nat) (bits : list AllocatedBit) : CS F (list (AllocatedNum F) * list AllocatedBit) :=
    match k with
    | O => ret ([], bits)
    | S k =>
        '(here, bits) <- cut 128 bits ;;
        n <- namespace "pack challenge" (g_get_challenge_scalar here) ;;
        '(ns, bits) <- cut_challenges k bits ;;
        ret (n :: ns, bits)
    end.

  (** [cs.enforce_zero(expected.lc() - b.get_variable())], e.g. recursion.rs:446-447 *)
  Definition enforce_value (expected : Combination F) (b : AllocatedNum F) : CS F unit :=
    enforce_zero (lc_sub_v (comb_lc one expected) (num_var b)).

  (** The unpacked deferred data: recursion.rs:236-309 *)
  Record GDeferred := mkGD {
    gd_x : AllocatedNum F; gd_y_old : AllocatedNum F; gd_y_cur : AllocatedNum F; gd_y_new : AllocatedNum F;
    gd_ky : AllocatedNum F; gd_tx_positive : AllocatedNum F; gd_tx_negative : AllocatedNum F;
    gd_sx_cur : AllocatedNum F; gd_rx : AllocatedNum F; gd_rxy : AllocatedNum F;
    gd_sq_old : list (AllocatedNum F); gd_gx_old : AllocatedNum F; gd_sq_new : list (AllocatedNum F);
    gd_b_x : AllocatedNum F; gd_b_xy : AllocatedNum F; gd_b_y_old : AllocatedNum F;
    gd_b_y_cur : AllocatedNum F; gd_b_y_new : AllocatedNum F }.
  Definition unpack_deferred (k : nat) (deferred : list AllocatedBit) : CS F GDeferred :=
    '(x, deferred) <- cut_scalar "pack x" 128 deferred ;;
    '(y_old, deferred) <- cut_scalar "pack y_old" 128 deferred ;;
    '(y_cur, deferred) <- cut_scalar "pack y_cur" 128 deferred ;;
    '(y_new, deferred) <- cut_scalar "pack y_new" 128 deferred ;;
    '(ky_opening, deferred) <- cut_scalar "pack ky_opening" 256 deferred ;;
    '(tx_positive_opening, deferred) <- cut_scalar "pack tx_positive_opening" 256 deferred ;;
    '(tx_negative_opening, deferred) <- cut_scalar "pack tx_negative_opening" 256 deferred ;;
    '(sx_cur_opening, deferred) <- cut_scalar "pack sx_cur_opening" 256 deferred ;;
    '(rx_opening, deferred) <- cut_scalar "pack rx_opening" 256 deferred ;;
    '(rxy_opening, deferred) <- cut_scalar "pack rxy_opening" 256 deferred ;;
    '(challenges_sq_old, deferred) <- cut_challenges k deferred ;;
    '(gx_old_opening, deferred) <- cut_scalar "pack gx_old_opening" 256 deferred ;;
    '(challenges_sq_new, deferred) <- cut_challenges k deferred ;;
    '(b_x, deferred) <- cut_scalar "pack b_x" 256 deferred ;;
    '(b_xy, deferred) <- cut_scalar "pack b_xy" 256 deferred ;;
    '(b_y_old, deferred) <- cut_scalar "pack b_y_old" 256 deferred ;;
    '(b_y_cur, deferred) <- cut_scalar "pack b_y_cur" 256 deferred ;;
    '(b_y_new, deferred) <- cut_scalar "pack b_y_new" 256 deferred ;;
    assert_ (length deferred =? 0) ;;;
    ret (mkGD x y_old y_cur y_new ky_opening tx_positive_opening tx_negative_opening sx_cur_opening
           rx_opening rxy_opening challenges_sq_old gx_old_opening challenges_sq_new b_x b_xy b_y_old b_y_cur b_y_new).

  (** the circuit check: recursion.rs:311-422 *)
  Definition check_circuit (k : nat) (d : GDeferred) : CS F (AllocatedNum F) :=
    xinv <- namespace "xinv" (num_invert one (gd_x d)) ;;
    yinv <- namespace "yinv" (num_invert one (gd_y_cur d)) ;;
    xyinv <- namespace "xyinv" (num_mul xinv yinv) ;;
    xy <- namespace "xy" (num_mul (gd_x d) (gd_y_cur d)) ;;
    x_invy <- namespace "x_invy" (num_mul (gd_x d) yinv) ;;
    nk <- unwrap (usize_sub k 2) ;;
    xinvn <- square_times xinv nk ;;
    xinvd <- square_times xinvn 2 ;;
    yn <- square_times (gd_y_cur d) nk ;;
    xn <- square_times (gd_x d) nk ;;
    xyinvn31 <- square_times xyinv nk ;;
    tmp <- namespace "xyinv^2n" (num_mul xyinvn31 xyinvn31) ;;
    xyinvn31 <- namespace "xyinv^3n" (num_mul xyinvn31 tmp) ;;
    xyinvn31 <- namespace "xyinv^(3n-1)" (num_mul xyinvn31 xy) ;;
    xinvn31 <- namespace "xinv^2n" (num_mul xinvn xinvn) ;;
    xinvn31 <- namespace "xinv^3n" (num_mul xinvn31 xinvn) ;;
    xinvn31 <- namespace "xinv^(3n-1)" (num_mul xinvn31 (gd_x d)) ;;
    rhs <- namespace "tx+opening * x" (num_mul (gd_tx_positive d) (gd_x d)) ;;
    tmp <- namespace "tx-opening * xinvd" (num_mul (gd_tx_negative d) xinvd) ;;
    let rhs := comb_add_num (comb_from_num rhs) tmp in
    lhs <- namespace "sx_cur_opening * xinvn" (num_mul (gd_sx_cur d) xinvn) ;;
    lhs <- namespace "sx_cur_opening * xinvn * yn" (num_mul lhs yn) ;;
    thing <- namespace "poly(xy, nk)" (g_compute_thing xy nk) ;;
    thing' <- namespace "poly(x_invy, nk)" (g_compute_thing x_invy nk) ;;
    thing <- namespace "(poly(xy, nk) + poly(x_invy, nk)) * xn" (comb_mul one (comb_add thing thing') (comb_from_num xn)) ;;
    tmp <- namespace "rxy_opening * xyinvn31" (num_mul (gd_rxy d) xyinvn31) ;;
    let lhs := comb_sub_num (comb_add_num (comb_from_num lhs) tmp) thing in
    tmp <- namespace "rx_opening * xinvn31" (num_mul (gd_rx d) xinvn31) ;;
    lhs <- namespace "lhs * (rx_opening * xinvn31)" (comb_mul one lhs (comb_from_num tmp)) ;;
    ky <- namespace "ky_opening * yn" (num_mul (gd_ky d) yn) ;;
    let lhs := comb_sub_num (comb_from_num lhs) ky in
    enforce_zero (lc_sub_lc (comb_lc one lhs) (comb_lc one rhs)) ;;;
    ret xy.

  (** square roots and inverses: recursion.rs:426-434, 451-458 *)
  Definition roots_and_inverses (sq : list (AllocatedNum F)) : CS F (list (AllocatedNum F) * list (AllocatedNum F)) :=
    cs_ <- mapM (fun c => namespace "sqrt challenge_sq" (num_sqrt c)) sq ;;
    inv <- mapM (fun c => namespace "invert challenge" (num_invert one c)) cs_ ;;
    ret (cs_, inv).

  (** [verify_deferred]: recursion.rs:231-496.  [k] is [self.params.k]. *)
  Definition verify_deferred (k : nat) (deferred : list AllocatedBit) : CS F unit :=
    d <- unpack_deferred k deferred ;;
    xy <- check_circuit k d ;;
    '(old, old_inv) <- roots_and_inverses (gd_sq_old d) ;;
    expected_gx_old_opening <- namespace "b_old(x)" (g_compute_b (gd_x d) old old_inv) ;;
    enforce_value expected_gx_old_opening (gd_gx_old d) ;;;
    '(new, new_inv) <- roots_and_inverses (gd_sq_new d) ;;
    expected_b_x <- namespace "b_new(x)" (g_compute_b (gd_x d) new new_inv) ;;
    expected_b_xy <- namespace "b_new(xy)" (g_compute_b xy new new_inv) ;;
    expected_b_y_old <- namespace "b_new(y_old)" (g_compute_b (gd_y_old d) new new_inv) ;;
    expected_b_y_cur <- namespace "b_new(y_cur)" (g_compute_b (gd_y_cur d) new new_inv) ;;
    expected_b_y_new <- namespace "b_new(y_new)" (g_compute_b (gd_y_new d) new new_inv) ;;
    enforce_value expected_b_x (gd_b_x d) ;;;
    enforce_value expected_b_xy (gd_b_xy d) ;;;
    enforce_value expected_b_y_old (gd_b_y_old d) ;;;
    enforce_value expected_b_y_cur (gd_b_y_cur d) ;;;
    enforce_value expected_b_y_new (gd_b_y_new d) ;;;
    ret tt.
End Helpers.
Arguments GDeferred F : clear implicits.

(** [RecursiveCircuit<F>]: circuits.rs:22-31 *)
Record RecursiveCircuit (F : Field) := mkInner {
  base_payload : list bool;
  inner_synthesize : Var -> list AllocatedBit -> list AllocatedBit -> CS F unit }.
Arguments base_payload {F} _. Arguments inner_synthesize {F} _ _ _ _.

Section Circuit.
  Context {C : Curve}.
  Local Notation F := (Base C).
  (** [CS::ONE] *)
  Variable one : Var.
  Local Notation req := ok_or_missing.
  Local Notation "x <? m ; f" := (rbind m (fun x => f)) (at level 61, m at next level, right associativity).

  (** What the circuit uses of a [RecursiveProof<C2, C1>] (recursion.rs:8-15): all
      but [oldproof2] *)
  Record OldProof := mkOld {
    op_proof : Proof_ C; op_oldproof1 : Leftovers C; op_deferred : Deferred F; op_payload : list Z }.

  (** [VerificationCircuit]: recursion.rs:214-226.  [vc_old_leftovers] are the bytes
      of the [Leftovers<C1>]. *)
  Record VerificationCircuit := mkVC {
    vc_params : Params C; vc_base_case : option bool; vc_inner : RecursiveCircuit F;
    vc_proof : option OldProof; vc_new_payload : list Z; vc_forkvalues : option (list nat);
    vc_old_leftovers : option (list Z); vc_new_leftovers : option (Leftovers C);
    vc_deferred : option (Deferred (Scalar C)) }.

  (** [commit_point]: recursion.rs:1312-1323 *)
  Definition commit_point (transcript : RescueGadget F) (point : CurvePoint C) : CS F (RescueGadget F) :=
    t <- namespace "absorb x" (gadget_absorb one transcript (cp_x point)) ;;
    namespace "absorb y" (gadget_absorb one t (cp_y point)).

  (** a witnessed point of the old proof, the identity if there is none, e.g.
      recursion.rs:708-713 *)
  Definition witness_of (self : VerificationCircuit) (s : string) (f : OldProof -> C) : CS F (CurvePoint C) :=
    namespace s (cp_witness one (Ok (match vc_proof self with Some p => f p | None => c_zero end))).
  (** ... whose choice may panic (a vector of the proof that is too short; the
      closures of [CurvePoint::witness] are always run) *)
  Definition witness_at (self : VerificationCircuit) (s : string) (f : OldProof -> option C) : CS F (CurvePoint C) :=
    p <- unwrap (match vc_proof self with Some p => f p | None => Some c_zero end) ;;
    namespace s (cp_witness one (Ok p)).

  (** [let (x, y) = p.get_xy(); unpack; equal_unless_base_case twice], e.g.
      recursion.rs:909-926 *)
  Definition point_equal_unless (s : string) (base_case : AllocatedBit) (p : CurvePoint C) (bits : list AllocatedBit)
      (from : nat) : CS F unit :=
    namespace s (
      x <- namespace "unpack x" (unpack_fe one (cp_x p)) ;;
      y <- namespace "unpack y" (unpack_fe one (cp_y p)) ;;
      bx <- bits_at bits from 256 ;;
      namespace "x" (equal_unless_base_case one base_case x bx) ;;;
      by_ <- bits_at bits (from + 256) 256 ;;
      namespace "y" (equal_unless_base_case one base_case y by_)).

  (** [p = p.multiply_endo(z)?.add(q)?] in turn: recursion.rs:955-984, 987-1019 *)
  Definition endo_chain (z : list AllocatedBit) (first : CurvePoint C) (others : list (CurvePoint C)) : CS F (CurvePoint C) :=
    foldM (fun p q =>
      p <- namespace "mul z" (cp_multiply_endo one p z) ;;
      namespace "add" (cp_add one p q)) others first.

  (** [E2::one()] as a constant: recursion.rs:786-789, 1276-1279 *)
  Definition g_constant : CS F (CurvePoint C) :=
    '(x, y) <- unwrap (c_get_xy (c_one : C)) ;;
    ret (cp_constant x y).

  (** One claim's messages in a round: recursion.rs:1189-1221 *)
  Definition ip_message (self : VerificationCircuit) (i : nat) (t : RescueGadget F) (j : nat)
    : CS F (CurvePoint C * CurvePoint C * CurvePoint C * CurvePoint C * RescueGadget F) :=
    let round p := nth_error (mo_rounds (pf_inner_product (op_proof p))) i in
    L <- witness_at self "witness L" (fun p => obind (round p) (fun r => nth_error (ip_L r) j)) ;;
    R <- witness_at self "witness R" (fun p => obind (round p) (fun r => nth_error (ip_R r) j)) ;;
    l <- witness_at self "witness l" (fun p => obind (round p) (fun r => option_map (c_mul c_one) (nth_error (ip_l r) j))) ;;
    r <- witness_at self "witness r" (fun p => obind (round p) (fun r => option_map (c_mul c_one) (nth_error (ip_r r) j))) ;;
    t <- namespace "commit L" (commit_point t L) ;;
    t <- namespace "commit R" (commit_point t R) ;;
    t <- namespace "commit l" (commit_point t l) ;;
    t <- namespace "commit r" (commit_point t r) ;;
    ret (L, R, l, r, t).
  (** One claim's update: recursion.rs:1246-1268 *)
  Definition ip_update (challenge : list AllocatedBit) (pv : CurvePoint C * CurvePoint C)
      (m : CurvePoint C * CurvePoint C * CurvePoint C * CurvePoint C) : CS F (CurvePoint C * CurvePoint C) :=
    let '(L, R, l, r) := m in
    let '(p, v) := pv in
    L <- namespace "[challenge^2] L" (cp_multiply_endo one L challenge) ;;
    R <- namespace "[challenge^-2] R" (cp_multiply_inv_endo one R challenge) ;;
    l <- namespace "[challenge^2] l" (cp_multiply_endo one l challenge) ;;
    r <- namespace "[challenge^-2] r" (cp_multiply_inv_endo one r challenge) ;;
    p <- namespace "p + L" (cp_add one p L) ;;
    p <- namespace "p + R" (cp_add one p R) ;;
    v <- namespace "p + l" (cp_add one v l) ;;
    v <- namespace "p + r" (cp_add one v r) ;;
    ret (p, v).
  (** One round: recursion.rs:1183-1269.  The state is p and v (per claim), the
      transcript and the challenges so far. *)
  Definition ip_round (self : VerificationCircuit)
      (st : list (CurvePoint C * CurvePoint C) * RescueGadget F * list (list AllocatedBit)) (i : nat)
    : CS F (list (CurvePoint C * CurvePoint C) * RescueGadget F * list (list AllocatedBit)) :=
    let '(pvs, t, packed) := st in
    namespace "round" (
      '(ms, t) <- foldM (fun '(ms, t) j =>
          '(L, R, l, r, t) <- ip_message self i t j ;; ret (ms ++ [(L, R, l, r)], t))
        (seq 0 (length pvs)) ([], t) ;;
      fork <- match vc_forkvalues self with
              | None => ret (Err AssignmentMissing)
              | Some fs => f <- unwrap (nth_error fs i) ;; ret (Ok (f_from_u128 (Z.of_nat f)))
              end ;;
      forkvalue <- namespace "fork for challenge" (num_alloc fork) ;;
      t <- namespace "transcript absorb fork value" (gadget_absorb one t (n_from forkvalue)) ;;
      '(challenge, t) <- namespace "round challenge" (g_get_challenge one t) ;;
      pvs <- mapM (fun '(pv, m) => ip_update challenge pv m) (combine pvs ms) ;;
      ret (pvs, t, packed ++ [challenge])).
  (** The final check of one claim: recursion.rs:1281-1306 *)
  Definition ip_final (self : VerificationCircuit) (base_case : AllocatedBit) (g_new g : CurvePoint C)
      (j : nat) (pv : CurvePoint C * CurvePoint C) (b : list AllocatedBit) : CS F unit :=
    let '(p, v) := pv in
    a <- unwrap (match vc_proof self with
                 | Some q => nth_error (mo_a (pf_inner_product (op_proof q))) j
                 | None => Some fzero
                 end) ;;
    a <- namespace "witness a" (witness_bits_from_fe (a : Scalar C)) ;;
    ag <- namespace "[a] g_new" (cp_multiply one g_new a) ;;
    namespace "p == [a] g_new" (
      namespace "x" (num_equal_unless_base_case one base_case (comb_from (cp_x p)) (comb_from (cp_x ag))) ;;;
      namespace "y" (num_equal_unless_base_case one base_case (comb_from (cp_y p)) (comb_from (cp_y ag)))) ;;;
    av <- namespace "[a] g" (cp_multiply one g a) ;;
    abv <- namespace "[a b] g" (cp_multiply one av b) ;;
    namespace "v == [a b] g" (
      namespace "x" (num_equal_unless_base_case one base_case (comb_from (cp_x v)) (comb_from (cp_x abv))) ;;;
      namespace "y" (num_equal_unless_base_case one base_case (comb_from (cp_y v)) (comb_from (cp_y abv)))).
  (** [verify_inner_product]: recursion.rs:1169-1310.  The commitments and openings
      are given together. *)
  Definition verify_inner_product (self : VerificationCircuit) (base_case : AllocatedBit) (t : RescueGadget F)
      (claims : list (CurvePoint C * CurvePoint C)) (b : list (list AllocatedBit))
    : CS F (CurvePoint C * list (list AllocatedBit)) :=
    '(pvs, t, packed) <- foldM (ip_round self) (seq 0 (p_k (vc_params self))) (claims, t, []) ;;
    g_new <- witness_of self "witness G" (fun p => mo_g (pf_inner_product (op_proof p))) ;;
    g <- g_constant ;;
    foldM (fun (_ : unit) '(j, pv) =>
      bj <- unwrap (nth_error b j) ;;
      ip_final self base_case g_new g j pv bj) (enumerate pvs) tt ;;;
    ret (g_new, packed).

  (** [g.multiply(&new_deferred[..])] and [commit_point], e.g. recursion.rs:791-801 *)
  Definition opening_point (g : CurvePoint C) (t : RescueGadget F) (bits : list AllocatedBit) (from : nat)
    : CS F (CurvePoint C * RescueGadget F) :=
    b <- bits_at bits from 256 ;;
    p <- namespace "opening_pt" (cp_multiply one g b) ;;
    t <- namespace "commit opening_pt" (commit_point t p) ;;
    ret (p, t).
  (** a witnessed point, committed to *)
  Definition witness_commit (self : VerificationCircuit) (s : string) (f : OldProof -> C) (t : RescueGadget F)
    : CS F (CurvePoint C * RescueGadget F) :=
    p <- witness_of self s f ;;
    t <- namespace "commit" (commit_point t p) ;;
    ret (p, t).

  (** [verify_proof]: recursion.rs:689-1167 *)
  Definition g_verify_proof (self : VerificationCircuit) (base_case : AllocatedBit) (k_commitment : CurvePoint C)
      (old_leftovers new_deferred new_leftovers : list AllocatedBit) : CS F unit :=
    let k := p_k (vc_params self) in
    t <- namespace "init Rescue" (gadget_new one) ;;
    t <- namespace "commit k_commitment" (commit_point t k_commitment) ;;
    '(r_commitment, t) <- witness_commit self "witness r_commitment" (fun p => pf_r_commitment (op_proof p)) t ;;
    '(y_cur, t) <- namespace "y_cur challenge" (g_get_challenge one t) ;;
    '(s_cur_commitment, t) <- witness_commit self "witness s_cur_commitment" (fun p => pf_s_cur_commitment (op_proof p)) t ;;
    '(t_positive_commitment, t) <- witness_commit self "witness t_positive_commitment" (fun p => pf_t_positive_commitment (op_proof p)) t ;;
    '(t_negative_commitment, t) <- witness_commit self "witness t_negative_commitment" (fun p => pf_t_negative_commitment (op_proof p)) t ;;
    '(x, t) <- namespace "x challenge" (g_get_challenge one t) ;;
    '(c_commitment, t) <- witness_commit self "witness c_commitment" (fun p => pf_c_commitment (op_proof p)) t ;;
    '(y_new, t) <- namespace "y_new challenge" (g_get_challenge one t) ;;
    '(s_new_commitment, t) <- witness_commit self "witness s_new_commitment" (fun p => pf_s_new_commitment (op_proof p)) t ;;
    g <- g_constant ;;
    '(ky_opening_pt, t) <- opening_point g t new_deferred (128 * 4) ;;
    '(rx_opening_pt, t) <- opening_point g t new_deferred (128 * 4 + 256 * 4) ;;
    '(rxy_opening_pt, t) <- opening_point g t new_deferred (128 * 4 + 256 * 5) ;;
    '(sx_old_opening_pt, t) <- witness_commit self "witness sx_old_opening_pt" (fun p => c_mul c_one (pf_sx_old_opening (op_proof p))) t ;;
    '(sx_cur_opening_pt, t) <- opening_point g t new_deferred (128 * 4 + 256 * 3) ;;
    '(tx_positive_opening_pt, t) <- opening_point g t new_deferred (128 * 4 + 256 * 1) ;;
    '(tx_negative_opening_pt, t) <- opening_point g t new_deferred (128 * 4 + 256 * 2) ;;
    '(sx_new_opening_pt, t) <- witness_commit self "witness sx_new_opening_pt" (fun p => c_mul c_one (pf_sx_new_opening (op_proof p))) t ;;
    '(gx_old_opening_pt, t) <- opening_point g t new_deferred (256 * 6 + (4 + k) * 128) ;;
    '(z, t) <- namespace "z challenge" (g_get_challenge one t) ;;
    s_old_commitment <- witness_of self "witness s_old_commitment" (fun p => Proofs.s_new_commitment (op_oldproof1 p)) ;;
    point_equal_unless "s_old_commitment" base_case s_old_commitment old_leftovers 0 ;;;
    g_old <- witness_of self "witness g_old" (fun p => Proofs.g_new (op_oldproof1 p)) ;;
    point_equal_unless "g_old" base_case g_old old_leftovers (256 * 2 + 128) ;;;
    p_commitment <- namespace "p_commitment" (endo_chain z r_commitment
      [s_old_commitment; s_cur_commitment; t_positive_commitment; t_negative_commitment; s_new_commitment; g_old]) ;;
    p_opening <- namespace "p_commitment" (endo_chain z rx_opening_pt
      [sx_old_opening_pt; sx_cur_opening_pt; tx_positive_opening_pt; tx_negative_opening_pt; sx_new_opening_pt; gx_old_opening_pt]) ;;
    q_commitment <- namespace "q_commitment" (endo_chain z k_commitment [c_commitment]) ;;
    qy_opening <- namespace "qy_opening" (endo_chain z ky_opening_pt [sx_cur_opening_pt]) ;;
    b <- mapM (fun i => bits_at new_deferred (256 * (7 + i) + (4 + 2 * k) * 128) 256) (seq 0 5) ;;
    '(g_new, challenges_sq_packed_new) <- namespace "inner product" (verify_inner_product self base_case t
      [(p_commitment, p_opening); (r_commitment, rxy_opening_pt); (c_commitment, sx_old_opening_pt);
       (q_commitment, qy_opening); (c_commitment, sx_new_opening_pt)] b) ;;
    point_equal_unless "s_new_commitment" base_case s_new_commitment new_leftovers 0 ;;;
    (bits <- bits_at new_leftovers 512 128 ;;
     namespace "y_new in new_leftovers" (equal_unless_base_case one base_case y_new bits)) ;;;
    point_equal_unless "g_new" base_case g_new new_leftovers (256 * 2 + 128) ;;;
    foldM (fun (_ : unit) '(i, challenge_sq_packed) =>
      bits <- bits_at new_leftovers (256 * 4 + 128 + 128 * i) 128 ;;
      namespace "challenge in new_leftovers" (equal_unless_base_case one base_case challenge_sq_packed bits) ;;;
      bits <- bits_at new_deferred (4 * 128 + 6 * 256 + k * 128 + 256 + i * 128) 128 ;;
      namespace "challenge in new_deferred" (equal_unless_base_case one base_case challenge_sq_packed bits))
      (enumerate challenges_sq_packed_new) tt ;;;
    (bits <- bits_at new_deferred 0 128 ;;
     namespace "challenge x in new_deferred" (equal_unless_base_case one base_case x bits)) ;;;
    (bits <- bits_at new_deferred (128 * 2) 128 ;;
     namespace "challenge y_cur in new_deferred" (equal_unless_base_case one base_case y_cur bits)) ;;;
    (bits <- bits_at new_deferred (128 * 3) 128 ;;
     namespace "challenge y_new in new_deferred" (equal_unless_base_case one base_case y_new bits)).

  (** the number of bits of [Leftovers] and [Deferred]: recursion.rs:1441, 1499 *)
  Definition leftovers_bits (k : nat) : nat := 256 * 4 + 128 * (k + 1).
  Definition deferred_bits (k : nat) : nat := 12 * 256 + (4 + 2 * k) * 128.

  (** public input bits, unchecked, e.g. recursion.rs:1413-1425; witnessed bits, e.g.
      1566-1577 *)
  Definition input_bits (s : string) (bs : list bool) : CS F (list AllocatedBit) :=
    namespace s (mapM (fun b => namespace "bit" (bit_alloc_input_unchecked (Ok b))) bs).
  Definition witness_bits (s : string) (bs : list bool) : CS F (list AllocatedBit) :=
    namespace s (mapM (fun b => namespace "bit" (bit_alloc (Ok b))) bs).
  Definition check_bits (s : string) (bits : list AllocatedBit) : CS F unit :=
    namespace s (foldM (fun (_ : unit) b => namespace "bit" (bit_check b)) bits tt).

  (** "constrain old_payload if base case": recursion.rs:1588-1627 *)
  Definition constrain_payload_bit (base_case : AllocatedBit) (bit : bool) (old : AllocatedBit) : CS F unit :=
    let basecase_val := option_map (fun v => f_from_bool v : F) (bit_value base_case) in
    '(a, b, c, _) <- multiply "(bit - old_payload_bit) * base_case = 0"
      (o <? req (bit_value old) ; bc <? req basecase_val ;
       Ok (fsub (f_from_bool bit) (f_from_bool o), bc, fzero)) ;;
    (if bit then enforce_zero (lc_add_v (lc_sub_v (lc_from a) one) (bit_var old))
     else enforce_zero (lc_add_v (lc_from a) (bit_var old))) ;;;
    enforce_zero (lc_sub_v (lc_from b) (bit_var base_case)) ;;;
    enforce_zero (lc_from c).

  (** the commitment to the old inputs: recursion.rs:1683-1700 *)
  Definition commit_bits (gens : list (F * F)) (bits : list AllocatedBit) (start : CurvePoint C) : CS F (CurvePoint C) :=
    foldM (fun k_commitment '(bit, (x, y)) =>
      namespace "bit" (cp_add_conditionally_incomplete one k_commitment (cp_constant x y) (Is bit)))
      (combine bits gens) start.

  (** [synthesize]: recursion.rs:1408-1719 *)
  Definition vc_synthesize (self : VerificationCircuit) : CS F unit :=
    let k := p_k (vc_params self) in
    payload_bits <- input_bits "new_payload" (bytes_bits (vc_new_payload self)) ;;
    leftovers1 <- input_bits "old_leftovers"
      (match vc_old_leftovers self with Some l => bytes_bits l | None => repeat false (leftovers_bits k) end) ;;
    leftovers2 <- input_bits "new_leftovers"
      (match vc_new_leftovers self with
       | Some l => bytes_bits (leftovers_to_bytes l) | None => repeat false (leftovers_bits k) end) ;;
    deferred <- input_bits "deferred"
      (match vc_deferred self with
       | Some l => bytes_bits (deferred_to_bytes l) | None => repeat false (deferred_bits k) end) ;;
    check_bits "constrain new_payload" payload_bits ;;;
    check_bits "constrain old_leftovers" leftovers1 ;;;
    check_bits "constrain new_leftovers" leftovers2 ;;;
    check_bits "constrain deferred" deferred ;;;
    base_case <- namespace "is base case" (bit_alloc (req (vc_base_case self))) ;;
    '(gx, gy) <- unwrap (nth_error (p_generators_xy (vc_params self)) 1) ;;
    let k_commitment := cp_constant gx gy in
    old_payload <- match vc_proof self with
                   | Some p => witness_bits "old_payload" (bytes_bits (op_payload p))
                   | None => witness_bits "base_payload" (base_payload (vc_inner self))
                   end ;;
    namespace "constrain old_payload if base case"
      (foldM (fun (_ : unit) '(bit, old) => constrain_payload_bit base_case bit old)
             (combine (base_payload (vc_inner self)) old_payload) tt) ;;;
    old_leftovers1 <- witness_bits "old_proof"
      (match vc_proof self with
       | Some p => bytes_bits (leftovers_to_bytes (op_oldproof1 p)) | None => repeat false (leftovers_bits k) end) ;;
    old <- unwrap (match vc_proof self with Some p => Some (op_deferred p) | None => deferred_dummy k end) ;;
    old_deferred <- witness_bits "old_deferred" (bytes_bits (deferred_to_bytes old)) ;;
    assert_ (length old_deferred =? length deferred) ;;;
    gens <- unwrap (slice_from (p_generators_xy (vc_params self)) 2) ;;
    k_commitment <- namespace "k_commitment"
      (commit_bits gens (old_payload ++ old_leftovers1 ++ leftovers1 ++ old_deferred) k_commitment) ;;
    namespace "verify deferred" (verify_deferred one k old_deferred) ;;;
    namespace "verify proof" (g_verify_proof self base_case k_commitment old_leftovers1 deferred leftovers2) ;;;
    (dc <- bits_at deferred (256 * 8) (128 * k) ;;
     oc <- unwrap (slice_from old_leftovers1 (256 * 4 + 128)) ;;
     namespace "deferred[challeges] == old_leftovers1[challenges]" (equal_unless_base_case one base_case dc oc)) ;;;
    (dy <- bits_at deferred (128 * 1) 128 ;;
     oy <- bits_at old_leftovers1 (256 * 2) 128 ;;
     namespace "deferred[y_old] == old_leftovers1[y_old]" (equal_unless_base_case one base_case dy oy)) ;;;
    namespace "inner circuit" (inner_synthesize (vc_inner self) one old_payload payload_bits).
End Circuit.
Arguments OldProof C : clear implicits.
Arguments VerificationCircuit C : clear implicits.
