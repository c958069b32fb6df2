(** src/curves: the [Curve] trait (src/curves/mod.rs) and its two
    implementations.

    ec0.rs and ec1.rs are the same text up to the names of the types and three
    constants; the functions are written once over the constants, with the line
    numbers of ec0.rs (ec1.rs has the same numbers), and instantiated at the end.
    [CtOption] is [option]: the closures given to [and_then] and [or_else] cannot
    panic, so evaluating them unconditionally, as subtle does, has no effect. *)
From Coq Require Import ZArith List Bool.
From Verif Require Import Model.FieldTrait Model.FieldLimbs Model.FieldInst.
Import ListNotations.
Open Scope Z_scope.

(** [trait Curve]: src/curves/mod.rs:6-62.  The carrier is the Rust type: any
    triple of base field elements, whether or not it is a point of the curve. *)
Record Curve := {
  CT :> Type;
  Scalar : Field;
  Base : Field;
  BETA_SCALAR : Scalar;
  BETA_BASE : Base;
  c_b : Base;
  c_zero : CT; c_one : CT;
  c_is_zero : CT -> bool;
  c_eqb : CT -> CT -> bool;
  c_select : CT -> CT -> bool -> CT;
  c_neg : CT -> CT;
  c_add : CT -> CT -> CT;
  c_sub : CT -> CT -> CT;
  c_double : CT -> CT;
  c_mul : CT -> Scalar -> CT;
  c_from_bytes : list Z -> option CT;
  c_to_bytes : CT -> list Z;
  c_get_xy : CT -> option (Base * Base);
  c_get_xyz : CT -> Base * Base * Base;
  c_from_xy : Base -> Base -> option CT;
  c_from_xy_unchecked : Base -> Base -> CT;
  c_is_on_curve : CT -> bool
}.
Arguments c_zero {_}. Arguments c_one {_}. Arguments c_is_zero {_} _. Arguments c_eqb {_} _ _.
Arguments c_select {_} _ _ _. Arguments c_neg {_} _. Arguments c_add {_} _ _. Arguments c_sub {_} _ _.
Arguments c_double {_} _. Arguments c_mul {_} _ _. Arguments c_from_bytes {_} _. Arguments c_to_bytes {_} _.
Arguments c_get_xy {_} _. Arguments c_get_xyz {_} _. Arguments c_from_xy {_} _ _.
Arguments c_from_xy_unchecked {_} _ _. Arguments c_is_on_curve {_} _.

(** The bits of a byte string in the order
    [.iter().rev().flat_map(|byte| (0..8).rev().map(|i| (byte >> i) & 1))]:
    ec0.rs:305-309 *)
Definition bytes_bits_rev (bytes : list Z) : list bool :=
  flat_map (fun byte => map (fun i => Z.land (Z.shiftr byte (Z.of_nat i)) 1 =? 1) (rev (seq 0 8))) (rev bytes).

(** [tmp[31] = f(tmp[31])] *)
Definition map_last_byte (f : Z -> Z) (bytes : list Z) : list Z :=
  firstn 31 bytes ++ map f (skipn 31 bytes).

Section Points.
  (** [F]: the base field, [S]: the scalar field, [cB], [c3B], [cGy]: the
      constants [B], the factor in [mul_by_3b] and the y coordinate in [one]. *)
  Variables (F S : Field) (cB c3B cGy : F).

  (** [struct Ec0]: ec0.rs:6-10 *)
  Record Pt := mkPt { px : F; py : F; pz : F }.

  (** [zero]: ec0.rs:55-61; [one]: 62-73; [is_zero]: 75-77 *)
  Definition pt_zero : Pt := mkPt fzero fone fzero.
  Definition pt_one : Pt := mkPt fone cGy fone.
  Definition pt_is_zero (P : Pt) : bool := feqb (pz P) fzero.

  (** [ct_eq]: ec0.rs:12-25 (the code does test [self.is_zero()] twice); [eq]: 27-32 *)
  Definition pt_eqb (P Q : Pt) : bool :=
    let x1 := fmul (px P) (pz Q) in
    let x2 := fmul (px Q) (pz P) in
    let y1 := fmul (py P) (pz Q) in
    let y2 := fmul (py Q) (pz P) in
    let z1 := pt_is_zero P in
    let z2 := pt_is_zero P in
    (z1 && z2) || (negb z1 && negb z2 && feqb x1 x2 && feqb y1 y2).

  (** [conditional_select]: ec0.rs:34-42 *)
  Definition pt_select (a b : Pt) (choice : bool) : Pt :=
    mkPt (select (px a) (px b) choice) (select (py a) (py b) choice) (select (pz a) (pz b) choice).

  (** [get_xy]: ec0.rs:120-127; [get_xyz]: 129-131 *)
  Definition pt_get_xy (P : Pt) : option (F * F) :=
    match f_invert (pz P) with
    | Some zinv => Some (fmul (px P) zinv, fmul (py P) zinv)
    | None => None
    end.
  Definition pt_get_xyz (P : Pt) : F * F * F := (px P, py P, pz P).

  (** [is_on_curve]: ec0.rs:187-194.  The [unwrap] cannot fail: [z] is not zero. *)
  Definition pt_is_on_curve (P : Pt) : bool :=
    if pt_is_zero P then true
    else match pt_get_xy P with
         | Some (x, y) => feqb (fadd (fmul (fsquare x) x) cB) (fsquare y)
         | None => false
         end.

  (** [from_xy]: ec0.rs:133-148; [from_xy_unchecked]: 150-156 *)
  Definition pt_from_xy_unchecked (x y : F) : Pt := mkPt x y fone.
  Definition pt_from_xy (x y : F) : option Pt :=
    let tmp := mkPt x y fone in
    if pt_is_on_curve tmp then Some tmp
    else if is_zero F x && is_zero F y then Some pt_zero
    else None.

  (** [from_bytes]: ec0.rs:79-105 *)
  Definition pt_from_bytes (bytes : list Z) : option Pt :=
    let ysign := Z.shiftr (nth 31 bytes 0) 7 =? 1 in
    let tmp := map_last_byte (fun b => Z.land b 0x7f) bytes in
    match f_from_bytes tmp with
    | None => None
    | Some x =>
        if is_zero F x && negb ysign then Some pt_zero
        else
          let x3 := fmul (fsquare x) x in
          match f_sqrt (fadd x3 cB) with
          | None => None
          | Some y =>
              let sign := Z.land (nth 0 (f_to_bytes y) 0) 1 =? 1 in
              let y := select y (fneg y) (xorb ysign sign) in
              Some (mkPt x y fone)
          end
    end.
  (** [to_bytes]: ec0.rs:106-117.  The [unwrap] cannot fail. *)
  Definition pt_to_bytes (P : Pt) : list Z :=
    if pt_is_zero P then repeat 0 32
    else match pt_get_xy P with
         | None => []
         | Some (x, y) =>
             let sign := Z.shiftl (Z.land (nth 0 (f_to_bytes y) 0) 1) 7 in
             map_last_byte (fun b => Z.lor b sign) (f_to_bytes x)
         end.

  (** [mul_by_3b]: ec0.rs:199-203 *)
  Definition mul_by_3b (a : F) : F := fmul a c3B.

  (** [double]: ec0.rs:158-185 *)
  Definition pt_double (P : Pt) : Pt :=
    let t0 := fsquare (py P) in
    let z3 := fadd t0 t0 in
    let z3 := fadd z3 z3 in
    let z3 := fadd z3 z3 in
    let t1 := fmul (py P) (pz P) in
    let t2 := fsquare (pz P) in
    let t2 := mul_by_3b t2 in
    let x3 := fmul t2 z3 in
    let y3 := fadd t0 t2 in
    let z3 := fmul t1 z3 in
    let t1 := fadd t2 t2 in
    let t2 := fadd t1 t2 in
    let t0 := fsub t0 t2 in
    let y3 := fmul t0 y3 in
    let y3 := fadd x3 y3 in
    let t1 := fmul (px P) (py P) in
    let x3 := fmul t0 t1 in
    let x3 := fadd x3 x3 in
    mkPt x3 y3 z3.

  (** [neg]: ec0.rs:205-221 *)
  Definition pt_neg (P : Pt) : Pt :=
    if pt_is_zero P then P else mkPt (px P) (fneg (py P)) (pz P).

  (** [add]: ec0.rs:241-290 *)
  Definition pt_add (P Q : Pt) : Pt :=
    let t0 := fmul (px P) (px Q) in
    let t1 := fmul (py P) (py Q) in
    let t2 := fmul (pz P) (pz Q) in
    let t3 := fadd (px P) (py P) in
    let t4 := fadd (px Q) (py Q) in
    let t3 := fmul t3 t4 in
    let t4 := fadd t0 t1 in
    let t3 := fsub t3 t4 in
    let t4 := fadd (px P) (pz P) in
    let t5 := fadd (px Q) (pz Q) in
    let t4 := fmul t4 t5 in
    let t5 := fadd t0 t2 in
    let t4 := fsub t4 t5 in
    let t5 := fadd (py P) (pz P) in
    let x3 := fadd (py Q) (pz Q) in
    let t5 := fmul t5 x3 in
    let x3 := fadd t1 t2 in
    let t5 := fsub t5 x3 in
    let x3 := mul_by_3b t2 in
    let z3 := x3 in
    let x3 := fsub t1 z3 in
    let z3 := fadd t1 z3 in
    let y3 := fmul x3 z3 in
    let t1 := fadd t0 t0 in
    let t1 := fadd t1 t0 in
    let t4 := mul_by_3b t4 in
    let t0 := fmul t1 t4 in
    let y3 := fadd y3 t0 in
    let t0 := fmul t5 t4 in
    let x3 := fmul t3 x3 in
    let x3 := fsub x3 t0 in
    let t0 := fmul t3 t1 in
    let z3 := fmul t5 z3 in
    let z3 := fadd z3 t0 in
    mkPt x3 y3 z3.

  (** [sub]: ec0.rs:232-239 *)
  Definition pt_sub (P Q : Pt) : Pt := pt_add P (pt_neg Q).

  (** [mul]: ec0.rs:292-318 *)
  Definition pt_mul (P : Pt) (s : S) : Pt :=
    fold_left (fun acc bit =>
      let acc := pt_double acc in
      pt_select acc (pt_add acc P) bit) (skipn 1 (bytes_bits_rev (f_to_bytes s))) pt_zero.

  Definition curve_of : Curve := {|
    CT := Pt; Scalar := S; Base := F;
    BETA_SCALAR := f_BETA; BETA_BASE := f_BETA; c_b := cB;
    c_zero := pt_zero; c_one := pt_one; c_is_zero := pt_is_zero; c_eqb := pt_eqb;
    c_select := pt_select; c_neg := pt_neg; c_add := pt_add; c_sub := pt_sub;
    c_double := pt_double; c_mul := pt_mul;
    c_from_bytes := pt_from_bytes; c_to_bytes := pt_to_bytes;
    c_get_xy := pt_get_xy; c_get_xyz := pt_get_xyz; c_from_xy := pt_from_xy;
    c_from_xy_unchecked := pt_from_xy_unchecked; c_is_on_curve := pt_is_on_curve |}.
End Points.
Arguments mkPt {F} _ _ _. Arguments px {F} _. Arguments py {F} _. Arguments pz {F} _.

(** [from_raw] (fp.rs:235-237) into the two fields *)
Definition fp_raw (l : limbs) : Fp := inj fp_params eq_refl (fe_from_raw fp_params l).
Definition fq_raw (l : limbs) : Fq := inj fq_params eq_refl (fe_from_raw fq_params l).

(** src/curves/ec0.rs: [B] line 197, [mul_by_3b] 202, [one] 65-70 *)
Definition ec0_B : Fq := fq_raw (L4 5 0 0 0).
Definition ec0_3B : Fq := fq_raw (L4 15 0 0 0).
Definition ec0_Gy : Fq := fq_raw (L4 0x8470e2773a41d265 0xf027d2b37cab6325 0x622572e64860fa80 0xcd539c198b2acdf).
Definition Ec0 : Curve := curve_of Fq Fp ec0_B ec0_3B ec0_Gy.
(** src/curves/ec1.rs: [B] line 197, [mul_by_3b] 202, [one] 65-70 *)
Definition ec1_B : Fp := fp_raw (L4 7 0 0 0).
Definition ec1_3B : Fp := fp_raw (L4 21 0 0 0).
Definition ec1_Gy : Fp := fp_raw (L4 0x793f9e8949e6de0d 0xf33aba0091f5fdeb 0xbecc40aa0beec5c0 0x5e808425ee1f35f).
Definition Ec1 : Curve := curve_of Fp Fq ec1_B ec1_3B ec1_Gy.
