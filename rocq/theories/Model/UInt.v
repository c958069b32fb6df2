(** src/gadgets/uint32.rs and src/gadgets/uint64.rs *)
From Coq Require Import String List Bool ZArith.
From Verif Require Import Model.FieldTrait Model.Circuits Model.Num Model.Boolean.
Import ListNotations.
Open Scope string_scope.
Open Scope list_scope.
Open Scope Z_scope.
Open Scope cs_scope.

(** [UInt32]: uint32.rs:8-12 and [UInt64]: uint64.rs:7-11; the two structures
    have the same fields.  A [u32] or [u64] is an integer in range. *)
Record UInt := mkU { u_bits : list Boolean; u_value : option Z }.

(** The loops [tmp & 1 == 1; tmp >>= 1] repeated [n] times: uint32.rs:19-28,
    45-50; uint64.rs:18-27, 44-49, 158-163.  Bit [i] is [(v >> i) & 1]. *)
Definition le_bits (n : nat) (v : Z) : list bool :=
  map (fun i => Z.testbit v (Z.of_nat i)) (seq 0 n).

(** [constant]: uint32.rs:16-34 ([n] = 32), uint64.rs:15-33 ([n] = 64) *)
Definition u_constant (n : nat) (value : Z) : UInt :=
  mkU (map Constant (le_bits n value)) (Some value).

(** [from_bits] and [from_bits_be]: the hint is the number whose bits, most
    significant first, are [bits]; [None] as soon as one is unknown. *)
Definition bits_be_value (bits : list Boolean) : option Z :=
  fold_left (fun value b =>
    match value, bool_value b with
    | Some v, Some b => Some (2 * v + Z.b2z b)
    | _, _ => None
    end) bits (Some 0).

(** [from_bits]: uint32.rs:104-142, uint64.rs:73-111.  [assert_eq!] on the length. *)
Definition u_from_bits {F} (n : nat) (bits : list Boolean) : CS F UInt :=
  assert_ (length bits =? n)%nat ;;;
  ret (mkU bits (bits_be_value (rev bits))).

(** [into_bits_be]: uint32.rs:69-73; [into_bits]: 98-100, uint64.rs:67-69 *)
Definition u_into_bits_be (u : UInt) : list Boolean := rev (u_bits u).
Definition u_into_bits (u : UInt) : list Boolean := u_bits u.

(** [from_bits_be]: uint32.rs:75-95 *)
Definition u32_from_bits_be {F} (bits : list Boolean) : CS F UInt :=
  assert_ (length bits =? 32)%nat ;;;
  ret (mkU (rev bits) (bits_be_value bits)).

(** [u32::rotate_right] for a rotation below 32 *)
Definition rotate_right32 (v by_ : Z) : Z :=
  Z.shiftr v by_ + Z.shiftl (v mod 2 ^ by_) (32 - by_).

(** [rotr]: uint32.rs:144-160 *)
Definition u32_rotr (self : UInt) (by_ : nat) : UInt :=
  let by_ := (by_ mod 32)%nat in
  mkU (firstn 32 (skipn by_ (u_bits self) ++ u_bits self))
      (option_map (fun v => rotate_right32 v (Z.of_nat by_)) (u_value self)).

(** [shr]: uint32.rs:162-181; the infinite [cycle] of constants is cut at 32 *)
Definition u32_shr (self : UInt) (by_ : nat) : UInt :=
  let by_ := (by_ mod 32)%nat in
  mkU (firstn 32 (skipn by_ (u_bits self) ++ repeat (Constant false) 32))
      (option_map (fun v => Z.shiftr v (Z.of_nat by_)) (u_value self)).

Definition omap3z {A} (f : Z -> Z -> Z -> A) (a b c : option Z) : option A :=
  match a, b, c with Some a, Some b, Some c => Some (f a b c) | _, _, _ => None end.

(** [!a] on a [u32] *)
Definition not32 (a : Z) : Z := 2 ^ 32 - 1 - a.

Section UInt.
  Context {F : Field}.
  Variable one : Var.

  (** [alloc]: uint32.rs:37-67 ([n] = 32), uint64.rs:36-64 ([n] = 64) *)
  Definition alloc_bits (values : list (option bool)) : CS F (list Boolean) :=
    mapM (fun v => b <- namespace "allocated bit i" (bit_alloc (ok_or_missing v)) ;; ret (Is b)) values.
  Definition hint_bits (n : nat) (value : option Z) : list (option bool) :=
    match value with Some v => map Some (le_bits n v) | None => repeat None n end.
  Definition u_alloc (n : nat) (value : option Z) : CS F UInt :=
    bits <- alloc_bits (hint_bits n value) ;;
    ret (mkU bits value).

  (** [triop]: uint32.rs:183-217 *)
  Definition u32_triop (a b c : UInt) (tri_fn : Z -> Z -> Z -> Z)
      (circuit_fn : Boolean -> Boolean -> Boolean -> CS F Boolean) : CS F UInt :=
    let new_value := omap3z tri_fn (u_value a) (u_value b) (u_value c) in
    bits <- mapM (fun '(a, b, c) => circuit_fn a b c)
      (combine (combine (u_bits a) (u_bits b)) (u_bits c)) ;;
    ret (mkU bits new_value).

  (** [sha256_maj]: uint32.rs:219-234 *)
  Definition u32_sha256_maj (a b c : UInt) : CS F UInt :=
    u32_triop a b c (fun a b c => Z.lxor (Z.lxor (Z.land a b) (Z.land a c)) (Z.land b c))
      (fun a b c => namespace "maj i" (bool_sha256_maj one a b c)).

  (** [sha256_ch]: uint32.rs:236-251 *)
  Definition u32_sha256_ch (a b c : UInt) : CS F UInt :=
    u32_triop a b c (fun a b c => Z.lxor (Z.land a b) (Z.land (not32 a) c))
      (fun a b c => namespace "ch i" (bool_sha256_ch one a b c)).

  (** [xor]: uint32.rs:253-277 *)
  Definition u32_xor (self other : UInt) : CS F UInt :=
    let new_value := omap2 Z.lxor (u_value self) (u_value other) in
    bits <- mapM (fun '(a, b) => namespace "xor of bit i" (bool_xor a b))
      (combine (u_bits self) (u_bits other)) ;;
    ret (mkU bits new_value).

  (** [lc]: uint64.rs:113-125; the inner loop of [addmany], uint32.rs:321-328 *)
  Fixpoint add_bits_lc (lc : LC F) (coeff : Coeff F) (bits : list Boolean) : LC F :=
    match bits with
    | [] => lc
    | bit :: bits => add_bits_lc (lc_add_lc lc (bool_lc bit one coeff)) (coeff_double coeff) bits
    end.
  Definition u64_lc (self : UInt) : LC F := add_bits_lc lc_zero COne (u_bits self).

  (** The [while max_value != 0] loop: uint32.rs:352-370, run at most [fuel]
      times ([max_value] is a [u64], so 64 halvings bring it to 0). *)
  Fixpoint result_loop (fuel : nat) (max_value : Z) (result_value : option Z) (i : Z)
      (coeff : Coeff F) (result_lc : LC F) (result_bits : list Boolean)
      : CS F (LC F * list Boolean) :=
    match fuel with
    | O => ret (result_lc, result_bits)
    | S fuel =>
        if max_value =? 0 then ret (result_lc, result_bits) else
        b <- namespace "result bit i"
               (bit_alloc (ok_or_missing (option_map (fun v => Z.testbit v i) result_value))) ;;
        result_loop fuel (Z.shiftr max_value 1) result_value (i + 1) (coeff_double coeff)
          (lc_add_cv result_lc coeff (bit_var b)) (result_bits ++ [Is b])
    end.

  (** [addmany]: uint32.rs:279-375.  [F::NUM_BITS >= 64] holds for both fields
      (NUM_BITS is 255) and is not a member of the model's [Field]. *)
  Definition u32_addmany (operands : list UInt) : CS F UInt :=
    assert_ (2 <=? length operands)%nat ;;;
    assert_ (length operands <=? 10)%nat ;;;
    let max_value := Z.of_nat (length operands) * (2 ^ 32 - 1) in
    let result_value :=
      fold_left (fun acc op => omap2 Z.add acc (u_value op)) operands (Some 0) in
    let lc := fold_left (fun lc op => add_bits_lc lc COne (u_bits op)) operands lc_zero in
    let all_constants := forallb (fun op => forallb bool_is_constant (u_bits op)) operands in
    let modular_value := option_map (fun v => v mod 2 ^ 32) result_value in
    match all_constants, modular_value with
    | true, Some v => ret (u_constant 32 v)
    | _, _ =>
        '(result_lc, result_bits) <- result_loop 64 max_value result_value 0 COne lc_zero [] ;;
        enforce_zero (lc_sub_lc lc result_lc) ;;;
        ret (mkU (firstn 32 result_bits) modular_value)
    end.

  (** the byte string of 2^64: uint64.rs:207-212 *)
  Definition bytes_2_64 : list Z :=
    [0; 0; 0; 0; 0; 0; 0; 0; 1; 0; 0; 0; 0; 0; 0; 0; 0; 0; 0; 0; 0; 0; 0; 0; 0; 0; 0; 0; 0; 0; 0; 0].

  (** [mul_acc2]: uint64.rs:131-225.  The 128-bit sum cannot overflow [u128]. *)
  Definition u64_mul_acc2 (self other addend1 addend2 : UInt) : CS F (UInt * UInt) :=
    let product := omap2 Z.mul (u_value self) (u_value other) in
    let result_value := omap3z (fun p c1 c2 => p + c1 + c2) product (u_value addend1) (u_value addend2) in
    result_bits <- alloc_bits (hint_bits 128 result_value) ;;
    res_low <- u_from_bits 64 (firstn 64 result_bits) ;;
    res_high <- u_from_bits 64 (firstn 64 (skipn 64 result_bits)) ;;
    '(l, r, o, _) <- multiply "product"
      (rbind (ok_or_missing (option_map (@f_from_u64 F) (u_value self))) (fun l =>
       rbind (ok_or_missing (option_map (@f_from_u64 F) (u_value other))) (fun r =>
       rbind (ok_or_missing (option_map (@f_from_u128 F) product)) (fun o =>
       Ok (l, r, o))))) ;;
    high <- unwrap (f_from_bytes bytes_2_64) ;;
    let high_coeff := coeff_from high in
    enforce_zero (lc_sub_v (u64_lc self) l) ;;;
    enforce_zero (lc_sub_v (u64_lc other) r) ;;;
    enforce_zero
      (lc_sub_lc (lc_sub_lc (lc_sub_v (lc_add_clc (u64_lc res_low) high_coeff (u64_lc res_high)) o)
        (u64_lc addend1)) (u64_lc addend2)) ;;;
    ret (res_low, res_high).
End UInt.
