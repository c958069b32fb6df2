(** src/gadgets/ecc.rs: curve points in circuits over the curve's base field. *)
From Coq Require Import String List Bool ZArith.
From Verif Require Import Model.FieldTrait Model.Circuits Model.Num Model.Boolean Model.Curve Model.Util.
Import ListNotations.
Open Scope string_scope.
Open Scope list_scope.
Open Scope cs_scope.

Section Ecc.
  Context {C : Curve}.
  Local Notation F := (Base C).
  (** [CS::ONE] *)
  Variable one : Var.

  Local Notation req := ok_or_missing.
  Local Notation fb := (@f_from_bool F).
  Local Notation "x <? m ; f" := (rbind m (fun x => f)) (at level 61, m at next level, right associativity).
  Local Notation "' p <? m ; f" := (rbind m (fun x => let p := x in f))
    (at level 61, p pattern, m at next level, right associativity).
  Local Notation lc := (n_lc one).
  Local Notation lc1 b := (bool_lc (F := F) b one COne).

  (** [CurvePoint]: ecc.rs:16-22; [get_xy] (150-154) is the two projections *)
  Record CurvePoint := mkCP { cp_x : Num F; cp_y : Num F; cp_id : Boolean }.

  (** [identity]: ecc.rs:26-33; [constant]: 36-42 *)
  Definition cp_identity : CurvePoint := mkCP (n_constant fzero) (n_constant fzero) (Constant true).
  Definition cp_constant (x y : F) : CurvePoint := mkCP (n_constant x) (n_constant y) (Constant false).

  (** [p.get_xy()] as (x, y, is_identity), the identity being (0, 0): ecc.rs:52-60,
      379-390, 1969-1975 *)
  Definition coords_or_zero (p : C) : F * F * bool :=
    match c_get_xy p with Some (x, y) => (x, y, false) | None => (fzero, fzero, true) end.

  (** [witness]: ecc.rs:45-134.  The argument is the closure's result. *)
  Definition cp_witness (point : res C) : CS F CurvePoint :=
    let point := p <? point ; Ok (coords_or_zero p) in
    let x_val := '(x, _, _) <? point ; Ok x in
    let y_val := '(_, y, _) <? point ; Ok y in
    let is_identity_val := '(_, _, b) <? point ; Ok b in
    let ysq := y <? y_val ; Ok (fmul y y) in
    let xsq := x <? x_val ; Ok (fmul x x) in
    let xcub := xsq <? xsq ; x <? x_val ; Ok (fmul xsq x) in
    x <- namespace "x" (num_alloc x_val) ;;
    y <- namespace "y" (num_alloc y_val) ;;
    is_identity <- namespace "is_identity" (bit_alloc is_identity_val) ;;
    '(a_var, b_var, c_var, _) <- multiply "y^2"
      (y1 <? y_val ; y2 <? y_val ; s <? ysq ; Ok (y1, y2, s)) ;;
    enforce_zero (lc_sub_v (num_lc y) a_var) ;;;
    enforce_zero (lc_sub_v (num_lc y) b_var) ;;;
    '(d_var, e_var, f_var, _) <- multiply "x^2"
      (x1 <? x_val ; x2 <? x_val ; s <? xsq ; Ok (x1, x2, s)) ;;
    enforce_zero (lc_sub_v (num_lc x) d_var) ;;;
    enforce_zero (lc_sub_v (num_lc x) e_var) ;;;
    '(g_var, h_var, i_var, _) <- multiply "x^3"
      (s <? xsq ; x <? x_val ; t <? xcub ; Ok (s, x, t)) ;;
    enforce_zero (lc_sub_v (lc_from f_var) g_var) ;;;
    enforce_zero (lc_sub_v (num_lc x) h_var) ;;;
    '(j_var, k_var, l_var, _) <- multiply "(x^3 + B - y^2) * (1 - is_identity) = 0"
      (t <? xcub ; s <? ysq ; b <? is_identity_val ;
       Ok (fsub (fadd t (c_b C)) s, fb (negb b), fzero)) ;;
    enforce_zero (lc_sub_v (lc_sub_v (lc_add_cv (lc_from i_var) (CFull (c_b C)) one) c_var) j_var) ;;;
    enforce_zero (lc_sub_v (lc_sub_v (lc_add_cv lc_zero COne one) (bit_var is_identity)) k_var) ;;;
    enforce_zero (lc_from l_var) ;;;
    ret (mkCP (n_from x) (n_from y) (Is is_identity)).

  (** [get_point]: ecc.rs:137-146.  The inner option is the [CtOption]. *)
  Definition cp_get_point (self : CurvePoint) : option (option C) :=
    match n_value (cp_x self), n_value (cp_y self), bool_value (cp_id self) with
    | Some x, Some y, Some is_identity => Some (if is_identity then None else c_from_xy x y)
    | _, _, _ => None
    end.

  (** [conditional_endo]: ecc.rs:156-196 *)
  Definition cp_conditional_endo (self : CurvePoint) (condition : Boolean) : CS F CurvePoint :=
    let x_ret_val := omap2 (fun (x : F) (b : bool) => if b then fmul x f_BETA else x)
                           (n_value (cp_x self)) (bool_value condition) in
    '(x_self_var, endoer, x_ret_var, _) <- multiply "x_self × ((endo - 1).bit + 1) = x_ret"
      (x_self <? req (n_value (cp_x self)) ; x_ret <? req x_ret_val ; bit <? req (bool_value condition) ;
       Ok (x_self, if bit then f_BETA else fone, x_ret)) ;;
    enforce_zero (lc_sub_v (lc (cp_x self)) x_self_var) ;;;
    enforce_zero (lc_sub_lc (lc_sub_v (lc_from endoer) one)
                            (bool_lc condition one (CFull (fsub f_BETA fone)))) ;;;
    ret (mkCP (n_from (mkNum x_ret_val x_ret_var)) (cp_y self) (cp_id self)).

  (** [conditional_neg]: ecc.rs:199-240 *)
  Definition cp_conditional_neg (self : CurvePoint) (condition : Boolean) : CS F CurvePoint :=
    let y_ret_val := omap2 (fun (y : F) (b : bool) => if b then fneg y else y)
                           (n_value (cp_y self)) (bool_value condition) in
    '(y_self_var, negator, y_ret_var, _) <- multiply "y_self × (1 - 2.bit) = y_ret"
      (y_self <? req (n_value (cp_y self)) ; y_ret <? req y_ret_val ; bit <? req (bool_value condition) ;
       Ok (y_self, if bit then fneg fone else fone, y_ret)) ;;
    enforce_zero (lc_sub_v (lc (cp_y self)) y_self_var) ;;;
    enforce_zero (lc_sub_v (lc_sub_lc (lc_from one) (bool_lc condition one (CFull (f_from_u64 2)))) negator) ;;;
    ret (mkCP (cp_x self) (n_from (mkNum y_ret_val y_ret_var)) (cp_id self)).

  (** [add_incomplete]: ecc.rs:248-351.  [y_r_lc] (line 343) is computed and not
      used by the code; [x_r_lc] is used once. *)
  Definition cp_add_incomplete (self other : CurvePoint) : CS F CurvePoint :=
    let x_p_val := n_value (cp_x self) in
    let y_p_val := n_value (cp_y self) in
    let x_q_val := n_value (cp_x other) in
    let y_q_val := n_value (cp_y other) in
    let lambda_val :=
      match x_q_val, y_q_val, x_p_val, y_p_val with
      | Some x_q, Some y_q, Some x_p, Some y_p =>
          match f_invert (fsub x_q x_p) with
          | Some inv_xqxp => Ok (fmul inv_xqxp (fsub y_q y_p))
          | None =>
              match bool_value (cp_id self) with
              | Some true => Ok fzero
              | _ => Err DivisionByZero
              end
          end
      | _, _, _, _ => Err AssignmentMissing
      end in
    let x_r_val :=
      match x_p_val, x_q_val with
      | Some x_p, Some x_q => lambda <? lambda_val ; Ok (fsub (fsub (fmul lambda lambda) x_p) x_q)
      | _, _ => Err AssignmentMissing
      end in
    let y_r_val :=
      match x_p_val, y_p_val with
      | Some x_p, Some y_p =>
          x_r <? x_r_val ; lambda <? lambda_val ; Ok (fsub (fmul lambda (fsub x_p x_r)) y_p)
      | _, _ => Err AssignmentMissing
      end in
    x_r <- namespace "x_r" (num_alloc x_r_val) ;;
    y_r <- namespace "y_r" (num_alloc y_r_val) ;;
    let x_p_lc := lc (cp_x self) in
    let y_p_lc := lc (cp_y self) in
    let x_q_lc := lc (cp_x other) in
    let y_q_lc := lc (cp_y other) in
    '(a_var, lambda, c_var, _) <- multiply "(x_q - x_p) * lambda = (y_q - y_p)"
      (x_p <? req x_p_val ; y_p <? req y_p_val ; x_q <? req x_q_val ; y_q <? req y_q_val ;
       l <? lambda_val ; Ok (fsub x_q x_p, l, fsub y_q y_p)) ;;
    enforce_zero (lc_sub_v (lc_sub_lc x_q_lc x_p_lc) a_var) ;;;
    enforce_zero (lc_sub_v (lc_sub_lc y_q_lc y_p_lc) c_var) ;;;
    '(d_var, e_var, f_var, _) <- multiply "lambda * lambda = (x_p + x_q + x_r)"
      (x_p <? req x_p_val ; x_q <? req x_q_val ; l <? lambda_val ; x_r <? x_r_val ;
       Ok (l, l, fadd (fadd x_p x_q) x_r)) ;;
    enforce_zero (lc_sub_v (lc_from lambda) d_var) ;;;
    enforce_zero (lc_sub_v (lc_from lambda) e_var) ;;;
    let x_r_lc := lc_sub_lc (lc_sub_lc (lc_from f_var) x_p_lc) x_q_lc in
    '(g_var, h_var, i_var, _) <- multiply "(x_p - x_r) * lambda = (y_p + y_r)"
      (x_p <? req x_p_val ; y_p <? req y_p_val ; x_r <? x_r_val ; l <? lambda_val ; y_r <? y_r_val ;
       Ok (fsub x_p x_r, l, fadd y_p y_r)) ;;
    enforce_zero (lc_sub_v (lc_sub_lc x_p_lc x_r_lc) g_var) ;;;
    enforce_zero (lc_sub_v (lc_from lambda) h_var) ;;;
    ret (mkCP (n_from x_r) (n_from y_r) (cp_id self)).

  (** [C::from_xy(x, y).unwrap()] when both coordinates are known: ecc.rs:372-373,
      1950-1954 *)
  Definition point_unwrap (x y : option F) : CS F (option C) :=
    match x, y with
    | Some x, Some y => p <- unwrap (c_from_xy x y) ;; ret (Some p)
    | _, _ => ret None
    end.

  (** [add]: ecc.rs:357-852.  As in the code, the constraints on [y_var] and
      [aa_var] (lines 752-753, 768-769) and the block of lines 722-738 are absent
      (commented out there), so [y3_lc] is not used. *)
  Definition cp_add (self other : CurvePoint) : CS F CurvePoint :=
    let x1_val := n_value (cp_x self) in
    let y1_val := n_value (cp_y self) in
    let x2_val := n_value (cp_x other) in
    let y2_val := n_value (cp_y other) in
    p1_val <- point_unwrap x1_val y1_val ;;
    p2_val <- point_unwrap x2_val y2_val ;;
    let p3_val := omap2 (fun p1 p2 => coords_or_zero (c_add p1 p2)) p1_val p2_val in
    let x3_val := option_map (fun '(x, _, _) => x) p3_val in
    let y3_val := option_map (fun '(_, y, _) => y) p3_val in
    let p3_is_identity_val := option_map (fun '(_, _, b) => b) p3_val in
    let p1_is_identity_val := bool_value (cp_id self) in
    let p2_is_identity_val := bool_value (cp_id other) in
    let x4_val := omap2 (fun (x3 : F) (b : bool) => if b then fzero else x3) x3_val p3_is_identity_val in
    let y4_val := omap2 (fun (y3 : F) (b : bool) => if b then fzero else y3) y3_val p3_is_identity_val in
    let pick (b : option bool) (u v : option F) :=
      obind u (fun u => obind v (fun v => option_map (fun b : bool => if b then u else v) b)) in
    let x5_val := pick p1_is_identity_val x2_val x4_val in
    let y5_val := pick p1_is_identity_val y2_val y4_val in
    let x_out_val := pick p2_is_identity_val x1_val x5_val in
    let y_out_val := pick p2_is_identity_val y1_val y5_val in
    x_out <- namespace "x_out" (num_alloc (req x_out_val)) ;;
    y_out <- namespace "y_out" (num_alloc (req y_out_val)) ;;
    p3_is_identity <- namespace "p3_is_identity" (bit_alloc (req p3_is_identity_val)) ;;
    let x1_lc := lc (cp_x self) in
    let y1_lc := lc (cp_y self) in
    let x2_lc := lc (cp_x other) in
    let y2_lc := lc (cp_y other) in
    let x2mx1_val := omap2 fsub x2_val x1_val in
    let x_is_same_val := option_map (fun x2mx1 => fb (feqb x2mx1 fzero)) x2mx1_val in
    let x2mx1psame_val := omap2 fadd x2mx1_val x_is_same_val in
    '(a_var, x_is_same_var, b_var, _) <- multiply "(x2 - x1) * x_is_same = 0"
      (x2mx1 <? req x2mx1_val ; x_is_same <? req x_is_same_val ; Ok (x2mx1, x_is_same, fzero)) ;;
    enforce_zero (lc_sub_v (lc_sub_lc x2_lc x1_lc) a_var) ;;;
    enforce_zero (lc_from b_var) ;;;
    let x2mx1_inv_val := option_map (fun x2mx1 : F =>
      match f_invert x2mx1 with Some inv => inv | None => fone end) x2mx1_val in
    '(c_var, d_var, e_var, _) <- multiply "(x2 - x1) * (x2 - x1)^-1 = (1 - x_is_same)"
      (x2mx1 <? req x2mx1_val ; x2mx1_inv <? req x2mx1_inv_val ; x_is_same <? req x_is_same_val ;
       Ok (x2mx1, x2mx1_inv, fsub fone x_is_same)) ;;
    enforce_zero (lc_sub_v (lc_from a_var) c_var) ;;;
    enforce_zero (lc_sub_v (lc_sub_v (lc_add_cv lc_zero COne one) x_is_same_var) e_var) ;;;
    let x1_sq := option_map (fun x => fmul x x) x1_val in
    '(f_var, g_var, h_var, _) <- multiply "x1^2"
      (x <? req x1_val ; xsq <? req x1_sq ; Ok (x, x, xsq)) ;;
    enforce_zero (lc_sub_v x1_lc f_var) ;;;
    enforce_zero (lc_sub_v x1_lc g_var) ;;;
    let j_val := omap2 fsub y2_val y1_val in
    let lambda_diff_val := omap2 (fun x2mx1psame y2my1 : F =>
      match f_invert x2mx1psame with Some inv => fmul inv y2my1 | None => fone end) x2mx1psame_val j_val in
    '(i_var, lambda_diff_var, j_var, _) <- multiply "(x2 - x1 + x_is_same) * lambda_diff = (y2 - y1)"
      (x2mx1psame <? req x2mx1psame_val ; y2my1 <? req j_val ; lambda_diff <? req lambda_diff_val ;
       Ok (x2mx1psame, lambda_diff, y2my1)) ;;
    enforce_zero (lc_sub_v (lc_add_v (lc_sub_lc x2_lc x1_lc) x_is_same_var) i_var) ;;;
    enforce_zero (lc_sub_v (lc_sub_lc y2_lc y1_lc) j_var) ;;;
    let k_val := option_map (fun y1 => fadd y1 y1) y1_val in
    let l_val := option_map (fun x1sq => fadd (fadd x1sq x1sq) x1sq) x1_sq in
    let lambda_same_val := omap2 (fun y1two x1sq3 : F =>
      match f_invert y1two with Some inv => fmul inv x1sq3 | None => fzero end) k_val l_val in
    '(k_var, lambda_same_var, l_var, _) <- multiply "(2 y1) * lambda_same = 3 x1^2"
      (y1two <? req k_val ; x1sq3 <? req l_val ; lambda_same <? req lambda_same_val ;
       Ok (y1two, lambda_same, x1sq3)) ;;
    enforce_zero (lc_sub_v (lc_add_lc y1_lc y1_lc) k_var) ;;;
    enforce_zero (lc_sub_v (lc_add_cv lc_zero (CFull (f_from_u64 3)) h_var) l_var) ;;;
    let lambda_val := obind x2mx1_val (fun x2mx1 =>
      if feqb x2mx1 fzero then lambda_same_val else lambda_diff_val) in
    let lambda_sq_val := option_map (fun lambda => fmul lambda lambda) lambda_val in
    '(lambda_var, m_var, n_var, _) <- multiply "lambda * lambda = x1 + x2 + x3"
      (lambda <? req lambda_val ; lambda_sq <? req lambda_sq_val ; Ok (lambda, lambda, lambda_sq)) ;;
    enforce_zero (lc_sub_v (lc_from lambda_var) m_var) ;;;
    let x3_lc := lc_sub_lc (lc_sub_lc (lc_from n_var) x1_lc) x2_lc in
    '(o_var, p_var, q_var, _) <- multiply "x_is_same * (lambda_same - lambda_diff) = (lambda - lambda_diff)"
      (x_is_same <? req x_is_same_val ; lambda_diff <? req lambda_diff_val ; lambda_same <? req lambda_same_val ;
       lambda <? req lambda_val ;
       Ok (x_is_same, fsub lambda_same lambda_diff, fsub lambda lambda_diff)) ;;
    enforce_zero (lc_sub_v (lc_from x_is_same_var) o_var) ;;;
    enforce_zero (lc_sub_v (lc_sub_v (lc_from lambda_same_var) lambda_diff_var) p_var) ;;;
    enforce_zero (lc_sub_v (lc_sub_v (lc_from lambda_var) lambda_diff_var) q_var) ;;;
    '(r_var, s_var, t_var, _) <- multiply "(x1 - x3) * lambda = y1 + y3"
      (lambda <? req lambda_val ; lambda_sq <? req lambda_sq_val ; x1 <? req x1_val ; x2 <? req x2_val ;
       let d := fadd (fadd (fsub x1 lambda_sq) x1) x2 in Ok (d, lambda, fmul d lambda)) ;;
    enforce_zero (lc_sub_v (lc_sub_lc x1_lc x3_lc) r_var) ;;;
    enforce_zero (lc_sub_v (lc_from lambda_var) s_var) ;;;
    '(u_var, p3_is_identity_var, v_var, _) <- multiply "(y2 + y1) * p3_is_identity = 0"
      (y1 <? req y1_val ; y2 <? req y2_val ; b <? req p3_is_identity_val ; Ok (fadd y2 y1, fb b, fzero)) ;;
    enforce_zero (lc_sub_v (lc_add_lc y2_lc y1_lc) u_var) ;;;
    enforce_zero (lc_sub_v (lc_from (bit_var p3_is_identity)) p3_is_identity_var) ;;;
    enforce_zero (lc_from v_var) ;;;
    '(y_var, z_var, x4_var, _) <- multiply "x3 * (1 - p3_is_identity) = x4"
      (x3 <? req x3_val ; x4 <? req x4_val ; b <? req p3_is_identity_val ; Ok (x3, fb (negb b), x4)) ;;
    enforce_zero (lc_sub_v (lc_sub_v (lc_from one) p3_is_identity_var) z_var) ;;;
    '(aa_var, bb_var, y4_var, _) <- multiply "y3 * (1 - p3_is_identity) = y4"
      (y3 <? req y3_val ; y4 <? req y4_val ; b <? req p3_is_identity_val ; Ok (y3, fb (negb b), y4)) ;;
    enforce_zero (lc_sub_v (lc_sub_v (lc_from one) p3_is_identity_var) bb_var) ;;;
    '(cc_var, dd_var, ee_var, _) <- multiply "p1_is_identity * (x2 - x4) = (x5 - x4)"
      (x2 <? req x2_val ; x4 <? req x4_val ; x5 <? req x5_val ; b <? req p1_is_identity_val ;
       Ok (fb b, fsub x2 x4, fsub x5 x4)) ;;
    enforce_zero (lc_sub_v (lc1 (cp_id self)) cc_var) ;;;
    enforce_zero (lc_sub_v (lc_sub_v x2_lc x4_var) dd_var) ;;;
    let x5_lc := lc_add_v (lc_from ee_var) x4_var in
    '(ff_var, gg_var, hh_var, _) <- multiply "p1_is_identity * (y2 - y4) = (y5 - y4)"
      (y2 <? req y2_val ; y4 <? req y4_val ; y5 <? req y5_val ; b <? req p1_is_identity_val ;
       Ok (fb b, fsub y2 y4, fsub y5 y4)) ;;
    enforce_zero (lc_sub_v (lc1 (cp_id self)) ff_var) ;;;
    enforce_zero (lc_sub_v (lc_sub_v y2_lc y4_var) gg_var) ;;;
    let y5_lc := lc_add_v (lc_from hh_var) y4_var in
    '(ii_var, jj_var, kk_var, _) <- multiply "p2_is_identity * (x1 - x5) = (x_out - x5)"
      (x1 <? req x1_val ; x5 <? req x5_val ; x_out <? req x_out_val ; b <? req p2_is_identity_val ;
       Ok (fb b, fsub x1 x5, fsub x_out x5)) ;;
    enforce_zero (lc_sub_v (lc1 (cp_id other)) ii_var) ;;;
    enforce_zero (lc_sub_v (lc_sub_lc x1_lc x5_lc) jj_var) ;;;
    enforce_zero (lc_sub_v (lc_sub_lc (num_lc x_out) x5_lc) kk_var) ;;;
    '(ll_var, mm_var, nn_var, _) <- multiply "p2_is_identity * (y1 - y5) = (y_out - y5)"
      (y1 <? req y1_val ; y5 <? req y5_val ; y_out <? req y_out_val ; b <? req p2_is_identity_val ;
       Ok (fb b, fsub y1 y5, fsub y_out y5)) ;;
    enforce_zero (lc_sub_v (lc1 (cp_id other)) ll_var) ;;;
    enforce_zero (lc_sub_v (lc_sub_lc y1_lc y5_lc) mm_var) ;;;
    enforce_zero (lc_sub_v (lc_sub_lc (num_lc y_out) y5_lc) nn_var) ;;;
    ret (mkCP (n_from x_out) (n_from y_out) (Is p3_is_identity)).

  (** [add_conditionally]: ecc.rs:859-991 *)
  Definition cp_add_conditionally (self other : CurvePoint) (condition : Boolean) : CS F CurvePoint :=
    sum <- namespace "unconditional add" (cp_add self other) ;;
    let x1_val := n_value (cp_x self) in
    let y1_val := n_value (cp_y self) in
    let xsum_val := n_value (cp_x sum) in
    let ysum_val := n_value (cp_y sum) in
    let self_is_identity_val := bool_value (cp_id self) in
    let sum_is_identity_val := bool_value (cp_id sum) in
    let bit_val := bool_value condition in
    let '(x_out_val, y_out_val, out_is_identity_val) :=
      match bit_val with
      | Some true => (xsum_val, ysum_val, sum_is_identity_val)
      | Some false => (x1_val, y1_val, self_is_identity_val)
      | None => (None, None, None)
      end in
    x_out <- namespace "x_out" (num_alloc (req x_out_val)) ;;
    y_out <- namespace "y_out" (num_alloc (req y_out_val)) ;;
    out_is_identity <- namespace "out_is_identity" (bit_alloc (req out_is_identity_val)) ;;
    let x1_lc := lc (cp_x self) in
    let y1_lc := lc (cp_y self) in
    let xsum_lc := lc (cp_x sum) in
    let ysum_lc := lc (cp_y sum) in
    '(a_var, b_var, c_var, _) <- multiply "bit * (x3 - x1) = (x_out - x1)"
      (bit <? req bit_val ; x1 <? req x1_val ; x3 <? req xsum_val ; x_out <? req x_out_val ;
       Ok (fb bit, fsub x3 x1, fsub x_out x1)) ;;
    enforce_zero (lc_sub_v (lc1 condition) a_var) ;;;
    enforce_zero (lc_sub_v (lc_sub_lc xsum_lc x1_lc) b_var) ;;;
    enforce_zero (lc_sub_v (lc_sub_lc (num_lc x_out) x1_lc) c_var) ;;;
    '(d_var, e_var, f_var, _) <- multiply "bit * (y3 - y1) = (y_out - y1)"
      (bit <? req bit_val ; y1 <? req y1_val ; y3 <? req ysum_val ; y_out <? req y_out_val ;
       Ok (fb bit, fsub y3 y1, fsub y_out y1)) ;;
    enforce_zero (lc_sub_v (lc1 condition) d_var) ;;;
    enforce_zero (lc_sub_v (lc_sub_lc ysum_lc y1_lc) e_var) ;;;
    enforce_zero (lc_sub_v (lc_sub_lc (num_lc y_out) y1_lc) f_var) ;;;
    '(g_var, h_var, i_var, _) <- multiply
      "bit * (sum_is_identity - self_is_identity) = (out_is_identity - self_is_identity)"
      (bit <? req bit_val ; self_is_identity <? req self_is_identity_val ;
       sum_is_identity <? req sum_is_identity_val ; out_is_identity <? req out_is_identity_val ;
       Ok (fb bit, fsub (fb sum_is_identity) (fb self_is_identity), fsub (fb out_is_identity) (fb self_is_identity))) ;;
    enforce_zero (lc_sub_v (lc1 condition) g_var) ;;;
    enforce_zero (lc_sub_v (lc_sub_lc (lc1 (cp_id sum)) (lc1 (cp_id self))) h_var) ;;;
    enforce_zero (lc_sub_v (lc_sub_lc (lc_from (bit_var out_is_identity)) (lc1 (cp_id self))) i_var) ;;;
    ret (mkCP (n_from x_out) (n_from y_out) (Is out_is_identity)).

  (** [self.get_point().map(|p| p.unwrap())]: ecc.rs:1009-1010 *)
  Definition get_point_unwrap (self : CurvePoint) : CS F (option C) :=
    match cp_get_point self with
    | Some p => p <- unwrap p ;; ret (Some p)
    | None => ret None
    end.

  (** [add_conditionally_incomplete]: ecc.rs:997-1196.  [lambda_val] is an
      [Option<CtOption<_>>]. *)
  Definition cp_add_conditionally_incomplete (self other : CurvePoint) (condition : Boolean) : CS F CurvePoint :=
    let x1_val := n_value (cp_x self) in
    let y1_val := n_value (cp_y self) in
    let x2_val := n_value (cp_x other) in
    let y2_val := n_value (cp_y other) in
    p1 <- get_point_unwrap self ;;
    p2 <- get_point_unwrap other ;;
    p3_val <- match p1, p2 with
              | Some p1, Some p2 => p3 <- unwrap (c_get_xy (c_add p1 p2)) ;; ret (Some p3)
              | _, _ => ret None
              end ;;
    let p_out :=
      match p3_val, bool_value condition with
      | Some p3, Some b => if b then Some p3 else omap2 pair x1_val y1_val
      | _, _ => None
      end in
    x_out <- namespace "x_out" (num_alloc (p <? req p_out ; Ok (fst p))) ;;
    y_out <- namespace "y_out" (num_alloc (p <? req p_out ; Ok (snd p))) ;;
    let x1_lc := lc (cp_x self) in
    let y1_lc := lc (cp_y self) in
    let x2_lc := lc (cp_x other) in
    let y2_lc := lc (cp_y other) in
    let a_val := omap2 (fun x1 x2 => fsub x2 x1) x1_val x2_val in
    let c_val := omap2 (fun y1 y2 => fsub y2 y1) y1_val y2_val in
    let lambda_val := omap2 (fun a_val c_val : F => option_map (fun inv => fmul inv c_val) (f_invert a_val)) a_val c_val in
    let div (l : option F) := match l with Some l => Ok l | None => Err DivisionByZero end in
    '(a_var, lambda, c_var, _) <- multiply "(x2 - x1) * lambda = (y2 - y1)"
      (a <? req a_val ; c <? req c_val ; l <? req lambda_val ; l <? div l ; Ok (a, l, c)) ;;
    enforce_zero (lc_sub_v (lc_sub_lc x2_lc x1_lc) a_var) ;;;
    enforce_zero (lc_sub_v (lc_sub_lc y2_lc y1_lc) c_var) ;;;
    '(d_var, e_var, f_var, _) <- multiply "lambda^2"
      (l <? req lambda_val ; l <? div l ; Ok (l, l, fmul l l)) ;;
    enforce_zero (lc_sub_v (lc_from lambda) d_var) ;;;
    enforce_zero (lc_sub_v (lc_from lambda) e_var) ;;;
    '(g_var, x3_var, i_var, _) <- multiply "lambda x3"
      (l <? req lambda_val ; p3 <? req p3_val ; l <? div l ; Ok (l, fst p3, fmul l (fst p3))) ;;
    enforce_zero (lc_sub_v (lc_from lambda) g_var) ;;;
    enforce_zero (lc_sub_v (lc_sub_lc (lc_sub_lc (lc_from f_var) x1_lc) x2_lc) x3_var) ;;;
    '(j_var, k_var, l_var, _) <- multiply "lambda x1"
      (l <? req lambda_val ; x1 <? req x1_val ; l <? div l ; Ok (l, x1, fmul l x1)) ;;
    enforce_zero (lc_sub_v (lc_from lambda) j_var) ;;;
    enforce_zero (lc_sub_v x1_lc k_var) ;;;
    let y3_lc := lc_sub_lc (lc_sub_v (lc_from l_var) i_var) y1_lc in
    '(m_var, n_var, o_var, _) <- multiply "bit * (x3 - x1) = (x_out - x1)"
      (bit <? req (bool_value condition) ; x1 <? req x1_val ; p3 <? req p3_val ; out <? req p_out ;
       Ok (fb bit, fsub (fst p3) x1, fsub (fst out) x1)) ;;
    enforce_zero (lc_sub_v (lc1 condition) m_var) ;;;
    enforce_zero (lc_sub_v (lc_sub_lc (lc_from x3_var) x1_lc) n_var) ;;;
    enforce_zero (lc_sub_v (lc_sub_lc (num_lc x_out) x1_lc) o_var) ;;;
    '(p_var, q_var, r_var, _) <- multiply "bit * (y3 - y1) = (y_out - y1)"
      (bit <? req (bool_value condition) ; y1 <? req y1_val ; p3 <? req p3_val ; out <? req p_out ;
       Ok (fb bit, fsub (snd p3) y1, fsub (snd out) y1)) ;;
    enforce_zero (lc_sub_v (lc1 condition) p_var) ;;;
    enforce_zero (lc_sub_v (lc_sub_lc y3_lc y1_lc) q_var) ;;;
    enforce_zero (lc_sub_v (lc_sub_lc (num_lc y_out) y1_lc) r_var) ;;;
    ret (mkCP (n_from x_out) (n_from y_out) (Constant false)).

  (** [double]: ecc.rs:1199-1317 *)
  Definition cp_double (self : CurvePoint) : CS F CurvePoint :=
    let x_p_val := n_value (cp_x self) in
    let y_p_val := n_value (cp_y self) in
    let lambda_val :=
      match x_p_val, y_p_val with
      | Some x_p, Some y_p =>
          match f_invert (fadd y_p y_p) with
          | Some inv_2yp => let xx_p := fmul x_p x_p in Ok (fmul inv_2yp (fadd (fadd xx_p xx_p) xx_p))
          | None => Ok fzero
          end
      | _, _ => Err AssignmentMissing
      end in
    let x_dbl_val :=
      match x_p_val with
      | Some x_p => lambda <? lambda_val ; Ok (fsub (fsub (fmul lambda lambda) x_p) x_p)
      | None => Err AssignmentMissing
      end in
    let y_dbl_val :=
      match x_p_val, y_p_val with
      | Some x_p, Some y_p =>
          x_dbl <? x_dbl_val ; lambda <? lambda_val ; Ok (fsub (fmul lambda (fsub x_p x_dbl)) y_p)
      | _, _ => Err AssignmentMissing
      end in
    x_dbl <- namespace "x_dbl" (num_alloc x_dbl_val) ;;
    y_dbl <- namespace "y_dbl" (num_alloc y_dbl_val) ;;
    let x_p_lc := lc (cp_x self) in
    let y_p_lc := lc (cp_y self) in
    let xx_p_val := option_map (fun x_p => fmul x_p x_p) x_p_val in
    '(a_var, b_var, xx_p, _) <- multiply "x_p^2"
      (x_p <? req x_p_val ; xx_p <? req xx_p_val ; Ok (x_p, x_p, xx_p)) ;;
    enforce_zero (lc_sub_v x_p_lc a_var) ;;;
    enforce_zero (lc_sub_v x_p_lc b_var) ;;;
    '(c_var, lambda, d_var, _) <- multiply "(2 y_p) * lambda = (3 x_p^2)"
      (y_p <? req y_p_val ; xx_p <? req xx_p_val ; l <? lambda_val ;
       Ok (fadd y_p y_p, l, fadd (fadd xx_p xx_p) xx_p)) ;;
    enforce_zero (lc_sub_v (lc_add_lc y_p_lc y_p_lc) c_var) ;;;
    enforce_zero (lc_sub_v (lc_add_v (lc_add_v (lc_add_v lc_zero xx_p) xx_p) xx_p) d_var) ;;;
    '(d_var, e_var, f_var, _) <- multiply "lambda * lambda = (2 x_p + x_dbl)"
      (x_p <? req x_p_val ; l <? lambda_val ; x_dbl <? x_dbl_val ; Ok (l, l, fadd (fadd x_p x_p) x_dbl)) ;;
    enforce_zero (lc_sub_v (lc_from lambda) d_var) ;;;
    enforce_zero (lc_sub_v (lc_from lambda) e_var) ;;;
    enforce_zero (lc_sub_v (lc_add_lc (lc_add_lc x_p_lc x_p_lc) (num_lc x_dbl)) f_var) ;;;
    '(g_var, h_var, i_var, _) <- multiply "(x_p - x_dbl) * lambda = (y_p + y_dbl)"
      (x_p <? req x_p_val ; y_p <? req y_p_val ; x_dbl <? x_dbl_val ; l <? lambda_val ; y_dbl <? y_dbl_val ;
       Ok (fsub x_p x_dbl, l, fadd y_p y_dbl)) ;;
    enforce_zero (lc_sub_v (lc_sub_lc x_p_lc (num_lc x_dbl)) g_var) ;;;
    enforce_zero (lc_sub_v (lc_from lambda) h_var) ;;;
    enforce_zero (lc_sub_v (lc_add_lc y_p_lc (num_lc y_dbl)) i_var) ;;;
    '(j_var, k_var, l_var, _) <- multiply "lambda * is_identity = 0"
      (b <? req (bool_value (cp_id self)) ; l <? lambda_val ; Ok (l, fb b, fzero)) ;;
    enforce_zero (lc_sub_v (lc_from lambda) j_var) ;;;
    enforce_zero (lc_sub_v (lc1 (cp_id self)) k_var) ;;;
    enforce_zero (lc_from l_var) ;;;
    ret (mkCP (n_from x_dbl) (n_from y_dbl) (cp_id self)).

  (** [double_and_add_incomplete]: ecc.rs:1327-1487 *)
  Definition cp_double_and_add_incomplete (self other : CurvePoint) : CS F CurvePoint :=
    let x_p_val := n_value (cp_x self) in
    let y_p_val := n_value (cp_y self) in
    let x_p_lc := lc (cp_x self) in
    let y_p_lc := lc (cp_y self) in
    let x_q_val := n_value (cp_x other) in
    let y_q_val := n_value (cp_y other) in
    let x_q_lc := lc (cp_x other) in
    let y_q_lc := lc (cp_y other) in
    let no_inverse :=
      match bool_value (cp_id self), bool_value (cp_id other) with
      | Some true, Some true => Ok fzero
      | _, _ => Err DivisionByZero
      end in
    let lambda_1_val :=
      match x_q_val, y_q_val, x_p_val, y_p_val with
      | Some x_q, Some y_q, Some x_p, Some y_p =>
          match f_invert (fsub x_q x_p) with
          | Some inv_xqxp => Ok (fmul inv_xqxp (fsub y_q y_p))
          | None => no_inverse
          end
      | _, _, _, _ => Err AssignmentMissing
      end in
    let x_r_val :=
      match x_p_val, x_q_val with
      | Some x_p, Some x_q => l1 <? lambda_1_val ; Ok (fsub (fsub (fmul l1 l1) x_p) x_q)
      | _, _ => Err AssignmentMissing
      end in
    let lambda_2_val :=
      match x_p_val, y_p_val with
      | Some x_p, Some y_p =>
          x_r <? x_r_val ; l1 <? lambda_1_val ;
          match f_invert (fsub x_p x_r) with
          | Some inv_xpxr => Ok (fsub (fmul inv_xpxr (fadd y_p y_p)) l1)
          | None => no_inverse
          end
      | _, _ => Err AssignmentMissing
      end in
    let x_s_val :=
      x_p <? req x_p_val ; x_r <? x_r_val ; l2 <? lambda_2_val ; Ok (fsub (fsub (fmul l2 l2) x_r) x_p) in
    let y_s_val :=
      match x_p_val, y_p_val with
      | Some x_p, Some y_p => x_s <? x_s_val ; l2 <? lambda_2_val ; Ok (fsub (fmul l2 (fsub x_p x_s)) y_p)
      | _, _ => Err AssignmentMissing
      end in
    x_s <- namespace "x_s" (num_alloc x_s_val) ;;
    y_s <- namespace "y_s" (num_alloc y_s_val) ;;
    '(a_var, lambda_1, c_var, _) <- multiply "(x_q - x_p) * lambda_1 = (y_q - y_p)"
      (x_p <? req x_p_val ; y_p <? req y_p_val ; x_q <? req x_q_val ; y_q <? req y_q_val ;
       l1 <? lambda_1_val ; Ok (fsub x_q x_p, l1, fsub y_q y_p)) ;;
    enforce_zero (lc_sub_v (lc_sub_lc x_q_lc x_p_lc) a_var) ;;;
    enforce_zero (lc_sub_v (lc_sub_lc y_q_lc y_p_lc) c_var) ;;;
    '(d_var, e_var, f_var, _) <- multiply "lambda_1 * lambda_1 = (x_p + x_q + x_r)"
      (x_p <? req x_p_val ; x_q <? req x_q_val ; l1 <? lambda_1_val ; x_r <? x_r_val ;
       Ok (l1, l1, fadd (fadd x_p x_q) x_r)) ;;
    enforce_zero (lc_sub_v (lc_from lambda_1) d_var) ;;;
    enforce_zero (lc_sub_v (lc_from lambda_1) e_var) ;;;
    '(lambda_2, k_var, l_var, _) <- multiply "lambda_2 * lambda_2 = (x_r + x_p + x_s)"
      (x_p <? req x_p_val ; l2 <? lambda_2_val ; x_r <? x_r_val ; x_s <? x_s_val ;
       Ok (l2, l2, fadd (fadd x_r x_p) x_s)) ;;
    enforce_zero (lc_sub_v (lc_from lambda_2) k_var) ;;;
    enforce_zero (lc_sub_v (lc_sub_lc (lc_add_v (num_lc x_s) f_var) x_q_lc) l_var) ;;;
    '(g_var, h_var, i_var, _) <- multiply "(x_p - x_r) × (lambda_1 + lambda_2) = (2 y_p)"
      (x_p <? req x_p_val ; y_p <? req y_p_val ; x_r <? x_r_val ; l1 <? lambda_1_val ; l2 <? lambda_2_val ;
       Ok (fsub x_p x_r, fadd l1 l2, fadd y_p y_p)) ;;
    enforce_zero (lc_sub_v (lc_add_lc (lc_add_lc (lc_sub_v x_p_lc f_var) x_p_lc) x_q_lc) g_var) ;;;
    enforce_zero (lc_sub_v (lc_add_v (lc_from lambda_1) lambda_2) h_var) ;;;
    enforce_zero (lc_sub_v (lc_add_lc y_p_lc y_p_lc) i_var) ;;;
    '(g_var, h_var, i_var, _) <- multiply "(x_p - x_s) × lambda_2 = (y_p + y_s)"
      (x_p <? req x_p_val ; y_p <? req y_p_val ; x_s <? x_s_val ; l2 <? lambda_2_val ; y_s <? y_s_val ;
       Ok (fsub x_p x_s, l2, fadd y_p y_s)) ;;
    enforce_zero (lc_sub_v (lc_sub_lc x_p_lc (num_lc x_s)) g_var) ;;;
    enforce_zero (lc_sub_v (lc_from lambda_2) h_var) ;;;
    enforce_zero (lc_sub_v (lc_add_lc y_p_lc (num_lc y_s)) i_var) ;;;
    ret (mkCP (n_from x_s) (n_from y_s) (cp_id self)).

  (** The body of the loop of [multiply]: ecc.rs:1497-1599 *)
  Definition cp_multiply_step (self ret_ : CurvePoint) (bit : AllocatedBit) : CS F CurvePoint :=
    dbl <- namespace "double" (cp_double ret_) ;;
    sum <- namespace "add" (cp_add dbl self) ;;
    let bit_val := bit_value bit in
    let pick {A} (s d : option A) := obind bit_val (fun b : bool => if b then s else d) in
    x_out <- namespace "x_out" (num_alloc (req (pick (n_value (cp_x sum)) (n_value (cp_x dbl))))) ;;
    y_out <- namespace "y_out" (num_alloc (req (pick (n_value (cp_y sum)) (n_value (cp_y dbl))))) ;;
    is_identity_out <- namespace "out_is_identity"
      (bit_alloc (req (pick (bool_value (cp_id sum)) (bool_value (cp_id dbl))))) ;;
    '(a_var, b_var, c_var, _) <- multiply "bit * (x_sum - x_dbl) = (x_out - x_dbl)"
      (bit <? req bit_val ; x_dbl <? req (n_value (cp_x dbl)) ; x_sum <? req (n_value (cp_x sum)) ;
       x_out <? req (num_value x_out) ; Ok (fb bit, fsub x_sum x_dbl, fsub x_out x_dbl)) ;;
    enforce_zero (lc_sub_v (lc_from (bit_var bit)) a_var) ;;;
    enforce_zero (lc_sub_v (lc_sub_lc (lc (cp_x sum)) (lc (cp_x dbl))) b_var) ;;;
    enforce_zero (lc_sub_v (lc_sub_lc (num_lc x_out) (lc (cp_x dbl))) c_var) ;;;
    '(d_var, e_var, f_var, _) <- multiply "bit * (y_sum - y_dbl) = (y_out - y_dbl)"
      (bit <? req bit_val ; y_dbl <? req (n_value (cp_y dbl)) ; y_sum <? req (n_value (cp_y sum)) ;
       y_out <? req (num_value y_out) ; Ok (fb bit, fsub y_sum y_dbl, fsub y_out y_dbl)) ;;
    enforce_zero (lc_sub_v (lc_from (bit_var bit)) d_var) ;;;
    enforce_zero (lc_sub_v (lc_sub_lc (lc (cp_y sum)) (lc (cp_y dbl))) e_var) ;;;
    enforce_zero (lc_sub_v (lc_sub_lc (num_lc y_out) (lc (cp_y dbl))) f_var) ;;;
    '(g_var, h_var, i_var, _) <- multiply
      "bit * (is_identity_sum - is_identity_dbl) = (is_identity_out - is_identity_dbl)"
      (bit <? req bit_val ; d <? req (bool_value (cp_id dbl)) ; s <? req (bool_value (cp_id sum)) ;
       o <? req (bit_value is_identity_out) ; Ok (fb bit, fsub (fb s) (fb d), fsub (fb o) (fb d))) ;;
    enforce_zero (lc_sub_v (lc_from (bit_var bit)) g_var) ;;;
    enforce_zero (lc_sub_v (lc_sub_lc (lc1 (cp_id sum)) (lc1 (cp_id dbl))) h_var) ;;;
    enforce_zero (lc_sub_v (lc_sub_lc (lc_from (bit_var is_identity_out)) (lc1 (cp_id dbl))) i_var) ;;;
    ret (mkCP (n_from x_out) (n_from y_out) (Is is_identity_out)).
  (** [multiply]: ecc.rs:1490-1605 *)
  Definition cp_multiply (self : CurvePoint) (other : list AllocatedBit) : CS F CurvePoint :=
    foldM (fun acc bit => namespace "bit" (cp_multiply_step self acc bit)) (rev other) cp_identity.

  (** [multiply_endo]: ecc.rs:1607-1721; slice indices are below 128, the length *)
  Definition no_bit : AllocatedBit := mkBit None one.
  Definition cp_endo_step (self : CurvePoint) (other : list AllocatedBit) (acc : CurvePoint) (i : nat) : CS F CurvePoint :=
    let should_negate := nth (i * 2) other no_bit in
    let should_endo := nth (i * 2 + 1) other no_bit in
    base <- namespace "conditional negation" (cp_conditional_neg self (Is should_negate)) ;;
    acc <- namespace "double and add" (cp_double_and_add_incomplete acc base) ;;
    namespace "conditional endo" (cp_conditional_endo acc (Is should_endo)).
  (** the two final gates: ecc.rs:1649-1690 *)
  Definition mask (s : string) (x : Num F) (is_identity : Boolean) : CS F (AllocatedNum F) :=
    '(a, b, xf, st) <- multiply s
      (x <? req (n_value x) ; b <? req (bool_value is_identity) ;
       let is_identity := if b then fzero else fone in Ok (x, is_identity, fmul x is_identity)) ;;
    enforce_zero (lc_sub_lc (lc_from a) (lc x)) ;;;
    enforce_zero (lc_sub_lc (lc_from b) (lc1 (bool_not is_identity))) ;;;
    ret (mkNum (option_map (fun '(_, _, r) => r) st) xf).
  Definition cp_multiply_endo (self : CurvePoint) (other : list AllocatedBit) : CS F CurvePoint :=
    assert_ (Nat.eqb (length other) 128) ;;;
    acc <- namespace "[2] Acc" (cp_double self) ;;
    acc <- namespace "[3] Acc" (cp_add_incomplete acc self) ;;
    acc <- foldM (cp_endo_step self other) (seq 1 63) acc ;;
    xf <- mask "final x coordinate" (cp_x acc) (cp_id self) ;;
    yf <- mask "final y coordinate" (cp_y acc) (cp_id self) ;;
    ret (mkCP (n_from xf) (n_from yf) (cp_id self)).

  (** [let mut cur = zero; for b in other.iter().rev() { .. }]: ecc.rs:1732-1740,
      1956-1964: bits without a value count as 0 *)
  Definition bits_scalar (other : list AllocatedBit) : Scalar C :=
    fold_left (fun cur b =>
      let cur := fadd cur cur in
      match bit_value b with Some true => fadd cur fone | _ => cur end) (rev other) fzero.

  (** [multiply_inv_endo]: ecc.rs:1723-1757 *)
  Definition cp_multiply_inv_endo (self : CurvePoint) (other : list AllocatedBit) : CS F CurvePoint :=
    res <- cp_witness
      (p <? req (cp_get_point self) ;
       let p := match p with Some p => p | None => c_zero end in
       let cur : Scalar C := get_challenge_scalar (bits_scalar other) in
       let cur := match f_invert cur with Some cur => cur | None => fzero end in
       Ok (c_mul p cur)) ;;
    should_be_original <- cp_multiply_endo res other ;;
    enforce_zero (lc_sub_lc (lc (cp_x self)) (lc (cp_x should_be_original))) ;;;
    enforce_zero (lc_sub_lc (lc (cp_y self)) (lc (cp_y should_be_original))) ;;;
    ret res.

  (** [multiply_fast]: ecc.rs:1762-1936.  The loop runs over the bits but the
      first and the last, from the top. *)
  Definition cp_multiply_fast (self : CurvePoint) (other : list AllocatedBit) : CS F CurvePoint :=
    k_0 <- unwrap (hd_error other) ;;
    assert_ (match bit_value (last other k_0) with Some b => b | None => true end) ;;;
    acc <- namespace "[2] Acc" (cp_double self) ;;
    acc <- namespace "[3] Acc" (cp_add_incomplete acc self) ;;
    acc <- foldM (fun acc bit => namespace "bit" (
             t <- namespace "conditional negation" (cp_conditional_neg self (bool_not (Is bit))) ;;
             namespace "double and add" (cp_double_and_add_incomplete acc t)))
             (skipn 1 (rev (skipn 1 other))) acc ;;
    acc_minus_t <- namespace "Acc - T" (cp_add_incomplete acc (mkCP (cp_x self) (n_neg (cp_y self)) (cp_id self))) ;;
    let k_0_val := bit_value k_0 in
    let x_p_val := n_value (cp_x acc) in
    let y_p_val := n_value (cp_y acc) in
    let x_r_val := n_value (cp_x acc_minus_t) in
    let y_r_val := n_value (cp_y acc_minus_t) in
    let pick (p r : option F) (k : option bool) :=
      match p, r, k with Some p, Some r, Some k_0 => Some (if k_0 then p else r) | _, _, _ => None end in
    let x_s_val := pick x_p_val x_r_val k_0_val in
    let y_s_val := pick y_p_val y_r_val k_0_val in
    let out (s : option F) := omap2 (fun (s : F) (b : bool) => if b then fzero else s) s (bool_value (cp_id self)) in
    let x_out_val := out x_s_val in
    let y_out_val := out y_s_val in
    x_out <- namespace "x_out" (num_alloc (req x_out_val)) ;;
    y_out <- namespace "y_out" (num_alloc (req y_out_val)) ;;
    let x_p_lc := lc (cp_x acc) in
    let y_p_lc := lc (cp_y acc) in
    let x_r_lc := lc (cp_x acc_minus_t) in
    let y_r_lc := lc (cp_y acc_minus_t) in
    '(j_var, k_var, l_var, _) <- multiply "(x_p - x_r) * k_0 = (x_s - x_r)"
      (x_p <? req x_p_val ; x_r <? req x_r_val ; x_s <? req x_s_val ; k_0 <? req k_0_val ;
       Ok (fsub x_p x_r, fb k_0, fsub x_s x_r)) ;;
    enforce_zero (lc_sub_v (lc_sub_lc x_p_lc x_r_lc) j_var) ;;;
    enforce_zero (lc_sub_v (lc_from (bit_var k_0)) k_var) ;;;
    let x_s_lc := lc_add_lc (lc_from l_var) x_r_lc in
    '(m_var, n_var, o_var, _) <- multiply "(y_p - y_r) * k_0 = (y_s - y_r)"
      (y_p <? req y_p_val ; y_r <? req y_r_val ; y_s <? req y_s_val ; k_0 <? req k_0_val ;
       Ok (fsub y_p y_r, fb k_0, fsub y_s y_r)) ;;
    enforce_zero (lc_sub_v (lc_sub_lc y_p_lc y_r_lc) m_var) ;;;
    enforce_zero (lc_sub_v (lc_from (bit_var k_0)) n_var) ;;;
    let y_s_lc := lc_add_lc (lc_from o_var) y_r_lc in
    '(p_var, q_var, r_var, _) <- multiply "x_s * (1 - is_identity) = x_out"
      (x_s <? req x_s_val ; x_out <? req x_out_val ; b <? req (bool_value (cp_id self)) ;
       Ok (x_s, fb (negb b), x_out)) ;;
    enforce_zero (lc_sub_v x_s_lc p_var) ;;;
    enforce_zero (lc_sub_v (lc1 (bool_not (cp_id self))) q_var) ;;;
    enforce_zero (lc_sub_v (num_lc x_out) r_var) ;;;
    '(s_var, t_var, u_var, _) <- multiply "y_s * (1 - is_identity) = y_out"
      (y_s <? req y_s_val ; y_out <? req y_out_val ; b <? req (bool_value (cp_id self)) ;
       Ok (y_s, fb (negb b), y_out)) ;;
    enforce_zero (lc_sub_v y_s_lc s_var) ;;;
    enforce_zero (lc_sub_v (lc1 (bool_not (cp_id self))) t_var) ;;;
    enforce_zero (lc_sub_v (num_lc y_out) u_var) ;;;
    ret (mkCP (n_from x_out) (n_from y_out) (cp_id self)).

  (** [inv_helper]: ecc.rs:1938-2009 *)
  Definition cp_inv_helper (self : CurvePoint) (other : list AllocatedBit)
      (mul_func : CurvePoint -> CS F CurvePoint) : CS F CurvePoint :=
    p <- point_unwrap (n_value (cp_x self)) (n_value (cp_y self)) ;;
    let mulby := bits_scalar other in
    let inverted_val :=
      p <? req p ;
      Ok (match f_invert mulby with
          | None => (fzero, fzero, true)
          | Some inv => coords_or_zero (c_mul p inv)
          end) in
    x_inv <- namespace "x_inv" (num_alloc ('(x, _, _) <? inverted_val ; Ok x)) ;;
    y_inv <- namespace "y_inv" (num_alloc ('(_, y, _) <? inverted_val ; Ok y)) ;;
    is_identity_inv <- namespace "inv_is_identity" (bit_alloc ('(_, _, b) <? inverted_val ; Ok b)) ;;
    let inverted := mkCP (n_from x_inv) (n_from y_inv) (Is is_identity_inv) in
    calculated <- mul_func inverted ;;
    enforce_zero (lc_sub_lc (lc (cp_x self)) (lc (cp_x calculated))) ;;;
    enforce_zero (lc_sub_lc (lc (cp_y self)) (lc (cp_y calculated))) ;;;
    enforce_zero (lc_sub_lc (lc1 (cp_id self)) (lc1 (cp_id calculated))) ;;;
    ret inverted.
  (** [multiply_inv]: ecc.rs:2012-2018; [multiply_inv_fast]: 2023-2030 *)
  Definition cp_multiply_inv (self : CurvePoint) (other : list AllocatedBit) : CS F CurvePoint :=
    cp_inv_helper self other (fun inverted => cp_multiply inverted other).
  Definition cp_multiply_inv_fast (self : CurvePoint) (other : list AllocatedBit) : CS F CurvePoint :=
    cp_inv_helper self other (fun inverted => cp_multiply_fast inverted other).
End Ecc.
Arguments CurvePoint C : clear implicits.
