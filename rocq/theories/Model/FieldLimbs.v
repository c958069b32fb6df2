(** Model of the two prime-field types [Fp] (src/fields/fp.rs) and [Fq]
    (src/fields/fq.rs).

    The two Rust files are textually identical except for their constants, so
    the model is written once, parametrised by a record of constants
    [fparams], and instantiated twice ([fp_params], [fq_params]).

    Machine words are integers [Z]; every place where Rust truncates or wraps
    has an explicit [mod 2^64] / [mod 2^128].  [subtle::Choice] is [bool],
    [CtOption<T>] is [option T] (the value is dropped when the flag is 0, which
    is all that its API lets a caller observe). *)
From Coq Require Import ZArith List Bool.
From Verif Require Export Model.FieldTrait.
Import ListNotations.
Open Scope Z_scope.

Definition w64 : Z := 2 ^ 64.
Definition w128 : Z := 2 ^ 128.

(** ** src/util.rs:456-475 *)

(** [adc]: src/util.rs:458-461 *)
Definition adc (a b carry : Z) : Z * Z :=
  let ret := (a + b + carry) mod w128 in
  (ret mod w64, (Z.shiftr ret 64) mod w64).

(** [sbb]: src/util.rs:465-468 ([wrapping_sub] on u128) *)
Definition sbb (a b borrow : Z) : Z * Z :=
  let ret := (a - (b + Z.shiftr borrow 63)) mod w128 in
  (ret mod w64, (Z.shiftr ret 64) mod w64).

(** [mac]: src/util.rs:472-475 *)
Definition mac (a b c carry : Z) : Z * Z :=
  let ret := (a + b * c + carry) mod w128 in
  (ret mod w64, (Z.shiftr ret 64) mod w64).

(** ** The element type: four u64 limbs, little endian (fp.rs:14-15) *)
(* [limbs] is defined in Model.FieldTrait *)

(** The constants that differ between fp.rs and fq.rs. *)
Record fparams := {
  MODULUS : limbs;            (* fp.rs:71-78 *)
  INV : Z;                    (* fp.rs:128-129 *)
  cR : limbs;                 (* fp.rs:131-137 *)
  cR2 : limbs;                (* fp.rs:139-145 *)
  cR3 : limbs;                (* fp.rs:147-153 *)
  ROOT_OF_UNITY : limbs;      (* fp.rs:157-169 *)
  cRESCUE_INVALPHA : limbs;   (* fp.rs:408-413 *)
  BETA_raw : limbs;           (* fp.rs:414-419, before [from_raw] *)
  SQRT_EXP : limbs;           (* fp.rs:453-458 *)
  INV_EXP : limbs             (* fp.rs:498-503 *)
}.

(** src/fields/fp.rs *)
Definition fp_params : fparams := {|
  MODULUS := L4 0x99fffe7d00000001 0x81be9c1a32012482 0xbac2a757742b3930 0x5c5e464a35c12769;
  INV := 0x99fffe7cffffffff;
  cR := L4 0xcc000305fffffffe 0xfc82c7cb9bfdb6fa 0x8a7ab15117a98d9e 0x4743736b947db12c;
  cR2 := L4 0xd21bca6b0eb7ce9 0xc614650905b5e467 0x55a4ae6f7ea066f2 0x2e5132263865a7a9;
  cR3 := L4 0xac7322921fbf5412 0xbc777a2173080bf6 0xeb3580f5a4178af9 0x4d3b7a048e8aadd0;
  ROOT_OF_UNITY := L4 0xb257e41b129e5b76 0x373020854649fe24 0xabfc522920f57d27 0x267b428852549f85;
  cRESCUE_INVALPHA := L4 0xf5ffff17cccccccd 0x1aa590dc846715e7 0x700e6467ac19ef1d 0x376bc3c62040b13f;
  BETA_raw := L4 0x33fffcfa00000002 0xc37d383464024905 0x96d4c09e11330dde 0x5c5e464a35c12768;
  SQRT_EXP := L4 0x190092414cffff3e 0xba159c9840df4e0d 0x1ae093b4dd6153ab 0x2e2f2325;
  INV_EXP := L4 0x99fffe7cffffffff 0x81be9c1a32012482 0xbac2a757742b3930 0x5c5e464a35c12769
|}.

(** src/fields/fq.rs (same line numbers) *)
Definition fq_params : fparams := {|
  MODULUS := L4 0x19fffe7d00000001 0x1b849d0f18018604 0xbac2a757742b3931 0x5c5e464a35c12769;
  INV := 0x19fffe7cffffffff;
  cR := L4 0xcc000305fffffffe 0xc8f6c5e1cffcf3f7 0x8a7ab15117a98d9d 0x4743736b947db12c;
  cR2 := L4 0x7418827fc8e3c388 0x24985f46055ea406 0xc634c5733d537aee 0x383854eab47eb60e;
  cR3 := L4 0x2130119bf7bd2f09 0xfd60bd87bbee441f 0x295664a9829b9d51 0x1501fb9c767aa429;
  ROOT_OF_UNITY := L4 0x19b9e2a2025f29b6 0xd58c9c00bb70545a 0xfd1fba57e713394e 0x2f1ed67b4030702c;
  cRESCUE_INVALPHA := L4 0x3d9998fecccccccd 0xa49b7206099a359b 0x4ab442efc8114a13 0x24f282841580762a;
  BETA_raw := L4 0xc0fffc3880000002 0x230cec8b8a02aa85 0x28cbb3fac2af2389 0x5c5e464a35c12769;
  SQRT_EXP := L4 0x8c00c3020cffff3e 0xba159c988dc24e87 0x1ae093b4dd6153ab 0x2e2f2325;
  INV_EXP := L4 0x19fffe7cffffffff 0x1b849d0f18018604 0xbac2a757742b3931 0x5c5e464a35c12769
|}.

(** [S]: fp.rs:155 *)
Definition TWO_ADICITY : nat := 32.
(** [RESCUE_ALPHA]: fp.rs:407 *)
Definition cRESCUE_ALPHA : Z := 5.

(** Equality and selection: fp.rs:43-68 *)
Definition fe_ct_eq (a b : limbs) : bool :=
  (l0 a =? l0 b) && (l1 a =? l1 b) && (l2 a =? l2 b) && (l3 a =? l3 b).


Section Ops.
  Variable P : fparams.

  (** [Fp::zero]: fp.rs:180-182;  [Fp::one]: fp.rs:186-188 *)
  Definition fe_zero : limbs := L4 0 0 0 0.
  Definition fe_one : limbs := cR P.

  (** [Fp::sub]: fp.rs:348-362 *)
  Definition fe_sub (a b : limbs) : limbs :=
    let (d0, borrow) := sbb (l0 a) (l0 b) 0 in
    let (d1, borrow) := sbb (l1 a) (l1 b) borrow in
    let (d2, borrow) := sbb (l2 a) (l2 b) borrow in
    let (d3, borrow) := sbb (l3 a) (l3 b) borrow in
    let (d0, carry) := adc d0 (Z.land (l0 (MODULUS P)) borrow) 0 in
    let (d1, carry) := adc d1 (Z.land (l1 (MODULUS P)) borrow) carry in
    let (d2, carry) := adc d2 (Z.land (l2 (MODULUS P)) borrow) carry in
    let (d3, _) := adc d3 (Z.land (l3 (MODULUS P)) borrow) carry in
    L4 d0 d1 d2 d3.

  (** [Fp::add]: fp.rs:366-375 *)
  Definition fe_add (a b : limbs) : limbs :=
    let (d0, carry) := adc (l0 a) (l0 b) 0 in
    let (d1, carry) := adc (l1 a) (l1 b) carry in
    let (d2, carry) := adc (l2 a) (l2 b) carry in
    let (d3, _) := adc (l3 a) (l3 b) carry in
    fe_sub (L4 d0 d1 d2 d3) (MODULUS P).

  (** [Fp::double]: fp.rs:192-195 *)
  Definition fe_double (a : limbs) : limbs := fe_add a a.

  (** [Fp::neg]: fp.rs:379-393 *)
  Definition fe_neg (a : limbs) : limbs :=
    let (d0, borrow) := sbb (l0 (MODULUS P)) (l0 a) 0 in
    let (d1, borrow) := sbb (l1 (MODULUS P)) (l1 a) borrow in
    let (d2, borrow) := sbb (l2 (MODULUS P)) (l2 a) borrow in
    let (d3, _) := sbb (l3 (MODULUS P)) (l3 a) borrow in
    let is0 := Z.lor (Z.lor (Z.lor (l0 a) (l1 a)) (l2 a)) (l3 a) =? 0 in
    let mask := ((if is0 then 1 else 0) - 1) mod w64 in
    L4 (Z.land d0 mask) (Z.land d1 mask) (Z.land d2 mask) (Z.land d3 mask).

  (** [Fp::montgomery_reduce]: fp.rs:272-316 *)
  Definition montgomery_reduce (r0 r1 r2 r3 r4 r5 r6 r7 : Z) : limbs :=
    let M := MODULUS P in
    let k := (r0 * INV P) mod w64 in
    let (_, carry) := mac r0 k (l0 M) 0 in
    let (r1, carry) := mac r1 k (l1 M) carry in
    let (r2, carry) := mac r2 k (l2 M) carry in
    let (r3, carry) := mac r3 k (l3 M) carry in
    let (r4, carry2) := adc r4 0 carry in

    let k := (r1 * INV P) mod w64 in
    let (_, carry) := mac r1 k (l0 M) 0 in
    let (r2, carry) := mac r2 k (l1 M) carry in
    let (r3, carry) := mac r3 k (l2 M) carry in
    let (r4, carry) := mac r4 k (l3 M) carry in
    let (r5, carry2) := adc r5 carry2 carry in

    let k := (r2 * INV P) mod w64 in
    let (_, carry) := mac r2 k (l0 M) 0 in
    let (r3, carry) := mac r3 k (l1 M) carry in
    let (r4, carry) := mac r4 k (l2 M) carry in
    let (r5, carry) := mac r5 k (l3 M) carry in
    let (r6, carry2) := adc r6 carry2 carry in

    let k := (r3 * INV P) mod w64 in
    let (_, carry) := mac r3 k (l0 M) 0 in
    let (r4, carry) := mac r4 k (l1 M) carry in
    let (r5, carry) := mac r5 k (l2 M) carry in
    let (r6, carry) := mac r6 k (l3 M) carry in
    let (r7, _) := adc r7 carry2 carry in

    fe_sub (L4 r4 r5 r6 r7) M.

  (** [Fp::mul]: fp.rs:320-344 *)
  Definition fe_mul (a b : limbs) : limbs :=
    let (r0, carry) := mac 0 (l0 a) (l0 b) 0 in
    let (r1, carry) := mac 0 (l0 a) (l1 b) carry in
    let (r2, carry) := mac 0 (l0 a) (l2 b) carry in
    let (r3, r4) := mac 0 (l0 a) (l3 b) carry in

    let (r1, carry) := mac r1 (l1 a) (l0 b) 0 in
    let (r2, carry) := mac r2 (l1 a) (l1 b) carry in
    let (r3, carry) := mac r3 (l1 a) (l2 b) carry in
    let (r4, r5) := mac r4 (l1 a) (l3 b) carry in

    let (r2, carry) := mac r2 (l2 a) (l0 b) 0 in
    let (r3, carry) := mac r3 (l2 a) (l1 b) carry in
    let (r4, carry) := mac r4 (l2 a) (l2 b) carry in
    let (r5, r6) := mac r5 (l2 a) (l3 b) carry in

    let (r3, carry) := mac r3 (l3 a) (l0 b) 0 in
    let (r4, carry) := mac r4 (l3 a) (l1 b) carry in
    let (r5, carry) := mac r5 (l3 a) (l2 b) carry in
    let (r6, r7) := mac r6 (l3 a) (l3 b) carry in
    montgomery_reduce r0 r1 r2 r3 r4 r5 r6 r7.

  (** [x << 1 | y >> 63] on u64 (fp.rs:251-256) *)
  Definition shl1or (x y : Z) : Z := Z.lor ((Z.shiftl x 1) mod w64) (Z.shiftr y 63).

  (** [Fp::square]: fp.rs:241-269 *)
  Definition fe_square (a : limbs) : limbs :=
    let (r1, carry) := mac 0 (l0 a) (l1 a) 0 in
    let (r2, carry) := mac 0 (l0 a) (l2 a) carry in
    let (r3, r4) := mac 0 (l0 a) (l3 a) carry in

    let (r3, carry) := mac r3 (l1 a) (l2 a) 0 in
    let (r4, r5) := mac r4 (l1 a) (l3 a) carry in

    let (r5, r6) := mac r5 (l2 a) (l3 a) 0 in

    let r7 := Z.shiftr r6 63 in
    let r6 := shl1or r6 r5 in
    let r5 := shl1or r5 r4 in
    let r4 := shl1or r4 r3 in
    let r3 := shl1or r3 r2 in
    let r2 := shl1or r2 r1 in
    let r1 := (Z.shiftl r1 1) mod w64 in

    let (r0, carry) := mac 0 (l0 a) (l0 a) 0 in
    let (r1, carry) := adc 0 r1 carry in
    let (r2, carry) := mac r2 (l1 a) (l1 a) carry in
    let (r3, carry) := adc 0 r3 carry in
    let (r4, carry) := mac r4 (l2 a) (l2 a) carry in
    let (r5, carry) := adc 0 r5 carry in
    let (r6, carry) := mac r6 (l3 a) (l3 a) carry in
    let (r7, _) := adc 0 r7 carry in
    montgomery_reduce r0 r1 r2 r3 r4 r5 r6 r7.

  (** [Fp::from_raw]: fp.rs:235-237 *)
  Definition fe_from_raw (v : limbs) : limbs := fe_mul v (cR2 P).

  (** [From<bool>]: fp.rs:28-36 *)
  Definition fe_from_bool (b : bool) : limbs := if b then fe_one else fe_zero.

  (** [From<u64>]: fp.rs:38-42 *)
  Definition fe_from (v : Z) : limbs := fe_mul (L4 v 0 0 0) (cR2 P).

  (** [from_u64]: fp.rs:433-435 ; [from_u128]: fp.rs:437-439 *)
  Definition fe_from_u64 (v : Z) : limbs := fe_from_raw (L4 v 0 0 0).
  Definition fe_from_u128 (v : Z) : limbs :=
    fe_from_raw (L4 (v mod w64) ((Z.shiftr v 64) mod w64) 0 0).

  (** [from_u512]: fp.rs:212-231 *)
  Definition fe_from_u512 (x0 x1 x2 x3 x4 x5 x6 x7 : Z) : limbs :=
    let d0 := L4 x0 x1 x2 x3 in
    let d1 := L4 x4 x5 x6 x7 in
    fe_add (fe_mul d0 (cR2 P)) (fe_mul d1 (cR3 P)).

  (** [LittleEndian::read_u64] of eight bytes (external crate byteorder) *)
  Fixpoint read_le (bs : list Z) : Z :=
    match bs with [] => 0 | b :: bs => b + 256 * read_le bs end.

  (** [LittleEndian::write_u64] *)
  Fixpoint write_le (n : nat) (v : Z) : list Z :=
    match n with O => [] | S n => v mod 256 :: write_le n (v / 256) end.

  Definition slice {A} (lo len : nat) (bs : list A) : list A := firstn len (skipn lo bs).

  (** [from_bytes_wide]: fp.rs:199-210.  The Rust argument type is [[u8; 64]];
      the model takes a list and the theorems assume length 64. *)
  Definition fe_from_bytes_wide (bs : list Z) : limbs :=
    fe_from_u512
      (read_le (slice 0 8 bs)) (read_le (slice 8 8 bs))
      (read_le (slice 16 8 bs)) (read_le (slice 24 8 bs))
      (read_le (slice 32 8 bs)) (read_le (slice 40 8 bs))
      (read_le (slice 48 8 bs)) (read_le (slice 56 8 bs)).

  (** [is_zero]: fp.rs:421-423 *)
  Definition fe_is_zero (a : limbs) : bool := fe_ct_eq a fe_zero.

  (** [BETA]: fp.rs:414-419 *)
  Definition fe_BETA : limbs := fe_from_raw (BETA_raw P).

  (** The operator implementations as a record, so that the default methods of
      the [Field] trait and the (identical) [sqrt] bodies apply to it. *)
  Definition limb_ops : FieldOps := {|
    FT := limbs; fzero := fe_zero; fone := fe_one;
    fadd := fe_add; fsub := fe_sub; fmul := fe_mul;
    fneg := fe_neg; fsquare := fe_square; feqb := fe_ct_eq |}.

  (** [Field::pow], [Field::pow_vartime]: src/fields/mod.rs:70-101 *)
  Definition fe_pow (a by_ : limbs) : limbs := pow limb_ops a by_.
  Definition fe_pow_vartime (a by_ : limbs) : limbs := pow_vartime limb_ops a by_.

  (** [invert]: fp.rs:497-506 *)
  Definition fe_invert (a : limbs) : option limbs :=
    let tmp := fe_pow_vartime a (INV_EXP P) in
    if negb (fe_ct_eq a fe_zero) then Some tmp else None.

  (** [sqrt]: fp.rs:447-493 *)
  Definition fe_sqrt (a : limbs) : option limbs :=
    sqrt_tonelli limb_ops TWO_ADICITY (ROOT_OF_UNITY P) (SQRT_EXP P) a.

  (** [from_bytes]: fp.rs:510-534 ([[u8;32]] as a list of length 32) *)
  Definition fe_from_bytes (bs : list Z) : option limbs :=
    let t := L4 (read_le (slice 0 8 bs)) (read_le (slice 8 8 bs))
                (read_le (slice 16 8 bs)) (read_le (slice 24 8 bs)) in
    let (_, borrow) := sbb (l0 t) (l0 (MODULUS P)) 0 in
    let (_, borrow) := sbb (l1 t) (l1 (MODULUS P)) borrow in
    let (_, borrow) := sbb (l2 t) (l2 (MODULUS P)) borrow in
    let (_, borrow) := sbb (l3 t) (l3 (MODULUS P)) borrow in
    let is_some := Z.land (borrow mod 256) 1 in
    let t := fe_mul t (cR2 P) in
    if is_some =? 1 then Some t else None.

  (** [to_bytes]: fp.rs:538-550 *)
  Definition fe_to_bytes (a : limbs) : list Z :=
    let t := montgomery_reduce (l0 a) (l1 a) (l2 a) (l3 a) 0 0 0 0 in
    write_le 8 (l0 t) ++ write_le 8 (l1 t) ++ write_le 8 (l2 t) ++ write_le 8 (l3 t).

  (** [get_lower_128]: fp.rs:552-556 *)
  Definition fe_get_lower_128 (a : limbs) : Z :=
    let t := montgomery_reduce (l0 a) (l1 a) (l2 a) (l3 a) 0 0 0 0 in
    Z.lor (l0 t) ((Z.shiftl (l1 t) 64) mod w128).

  (** [batch_invert]: src/fields/mod.rs:110-131 *)
  Definition fe_batch_invert (v : list limbs) : option (list limbs * limbs) :=
    batch_invert limb_ops fe_invert v.
End Ops.
