(** src/gadgets/boolean.rs *)
From Coq Require Import String List Bool ZArith.
From Verif Require Import Model.FieldTrait Model.Circuits Model.Num.
Import ListNotations.
Open Scope string_scope.
Open Scope list_scope.
Open Scope cs_scope.

(** [AllocatedBit]: boolean.rs:3-7.  [get_value] (22-24) and [get_variable]
    (26-28) are the projections. *)
Record AllocatedBit := mkBit { bit_value : option bool; bit_var : Var }.

(** [Boolean]: boolean.rs:322-333 *)
Inductive Boolean := Is (b : AllocatedBit) | Not (b : AllocatedBit) | Constant (c : bool).

(** [is_constant]: boolean.rs:336-341 *)
Definition bool_is_constant (b : Boolean) : bool :=
  match b with Constant _ => true | _ => false end.

(** [get_value]: boolean.rs:374-380 *)
Definition bool_value (b : Boolean) : option bool :=
  match b with
  | Constant c => Some c
  | Is v => bit_value v
  | Not v => option_map negb (bit_value v)
  end.

(** [not]: boolean.rs:404-410.  [constant] (399-401) and [From<AllocatedBit>]
    (729-733) are the constructors. *)
Definition bool_not (b : Boolean) : Boolean :=
  match b with
  | Constant c => Constant (negb c)
  | Is v => Not v
  | Not v => Is v
  end.

(** The value a closure assigned to a captured [result_value] before returning
    [Ok]: assigned exactly when the closure was run and got that far. *)
Definition kept {A B} (st : option A) (val : option B) : option B :=
  match st with Some _ => val | None => None end.

(** [(byte >> i) & 1 == 1] for [i] in [0..8]: boolean.rs:292-295 *)
Definition byte_bits (byte : Z) : list bool :=
  map (fun i => Z.testbit byte (Z.of_nat i)) (seq 0 8).
(** boolean.rs:287-299: the bits of a value, least significant first *)
Definition fe_bits {F : Field} (value : F) : list bool :=
  flat_map byte_bits (f_to_bytes value).

(** decimal rendering of a loop index in [format!("bit {}", i)] is only an
    annotation: the name is kept without the number. *)
Section Boolean.
  Context {F : Field}.
  (** [CS::ONE] *)
  Variable one : Var.

  Local Notation req := ok_or_missing.
  Local Notation fb := (@f_from_bool F).

  (** [one]: boolean.rs:10-19 *)
  Definition bit_one : AllocatedBit := mkBit (Some true) one.

  (** [alloc_input_unchecked]: boolean.rs:33-54 *)
  Definition bit_alloc_input_unchecked (value : res bool) : CS F AllocatedBit :=
    '(var, st) <- alloc_input "input bit" (rbind value (fun v => Ok (fb v))) ;;
    ret (mkBit (kept st (ok value)) var).

  (** [check]: boolean.rs:56-75 *)
  Definition bit_check (self : AllocatedBit) : CS F unit :=
    '(a, b, c, _) <- multiply "constrain input bit"
      (rbind (req (bit_value self)) (fun val => Ok (fb val, fb val, fb val))) ;;
    enforce_zero (lc_sub_v (lc_from a) (bit_var self)) ;;;
    enforce_zero (lc_sub_v (lc_from b) (bit_var self)) ;;;
    enforce_zero (lc_sub_v (lc_from c) (bit_var self)) ;;;
    ret tt.

  (** [alloc]: boolean.rs:77-105 *)
  Definition bit_alloc (value : res bool) : CS F AllocatedBit :=
    '(a, b, c, st) <- multiply "bit" (rbind value (fun v => Ok (fb v, fb v, fb v))) ;;
    enforce_zero (lc_sub_v (lc_from a) b) ;;;
    enforce_zero (lc_sub_v (lc_from b) c) ;;;
    ret (mkBit (kept st (ok value)) a).

  (** [xor]: boolean.rs:107-178 *)
  Definition bit_xor (a b : AllocatedBit) : CS F AllocatedBit :=
    '(result_var, st) <- alloc "xor result"
      (rbind (req (bit_value a)) (fun a_val =>
       rbind (req (bit_value b)) (fun b_val =>
       if xorb a_val b_val then Ok fone else Ok fzero))) ;;
    let result_value := kept st (omap2 xorb (bit_value a) (bit_value b)) in
    '(d_var, e_var, f_var, _) <- multiply "xor"
      (rbind (req (bit_value a)) (fun a_val =>
       rbind (req (bit_value b)) (fun b_val =>
       rbind (req result_value) (fun c_val =>
       Ok (fadd (fb a_val) (fb a_val), fb b_val,
           fsub (fadd (fb a_val) (fb b_val)) (fb c_val)))))) ;;
    enforce_zero (lc_sub_v (lc_add_v (lc_from (bit_var a)) (bit_var a)) d_var) ;;;
    enforce_zero (lc_sub_v (lc_from (bit_var b)) e_var) ;;;
    enforce_zero
      (lc_sub_v (lc_sub_v (lc_add_v (lc_from (bit_var a)) (bit_var b)) result_var) f_var) ;;;
    ret (mkBit result_value result_var).

  (** [and]: boolean.rs:181-214 *)
  Definition bit_and (a b : AllocatedBit) : CS F AllocatedBit :=
    '(a_var, b_var, result_var, st) <- multiply "and"
      (rbind (req (bit_value a)) (fun a_val =>
       rbind (req (bit_value b)) (fun b_val =>
       if andb a_val b_val then Ok (fone, fone, fone)
       else Ok (fb a_val, fb b_val, fzero)))) ;;
    let result_value := kept st (omap2 andb (bit_value a) (bit_value b)) in
    enforce_zero (lc_sub_v (lc_from a_var) (bit_var a)) ;;;
    enforce_zero (lc_sub_v (lc_from b_var) (bit_var b)) ;;;
    ret (mkBit result_value result_var).

  (** [and_not]: boolean.rs:217-244 *)
  Definition bit_and_not (a b : AllocatedBit) : CS F AllocatedBit :=
    '(a_var, not_b_var, result_var, st) <- multiply "and_not"
      (rbind (req (bit_value a)) (fun a_val =>
       rbind (req (bit_value b)) (fun b_val =>
       Ok (fb a_val, fb (negb b_val), fb (andb a_val (negb b_val)))))) ;;
    let result_value :=
      kept st (omap2 (fun a b => andb a (negb b)) (bit_value a) (bit_value b)) in
    enforce_zero (lc_sub_v (lc_from a_var) (bit_var a)) ;;;
    enforce_zero (lc_sub_v (lc_add_v (lc_from not_b_var) (bit_var b)) one) ;;;
    ret (mkBit result_value result_var).

  (** [nor]: boolean.rs:247-278 *)
  Definition bit_nor (a b : AllocatedBit) : CS F AllocatedBit :=
    '(not_a_var, not_b_var, result_var, st) <- multiply "nor"
      (rbind (req (bit_value a)) (fun a_val =>
       rbind (req (bit_value b)) (fun b_val =>
       Ok (fb (negb a_val), fb (negb b_val), fb (andb (negb a_val) (negb b_val)))))) ;;
    let result_value :=
      kept st (omap2 (fun a b => andb (negb a) (negb b)) (bit_value a) (bit_value b)) in
    enforce_zero (lc_sub_v (lc_add_v (lc_from not_a_var) (bit_var a)) one) ;;;
    enforce_zero (lc_sub_v (lc_add_v (lc_from not_b_var) (bit_var b)) one) ;;;
    ret (mkBit result_value result_var).

  (** [Coeff::from(F)]: circuits.rs:275-279 *)
  Definition coeff_from (x : F) : Coeff F := CFull x.

  (** boolean.rs:309-315: [lc] and [cur] start at zero and one *)
  Fixpoint bits_lc (lc : LC F) (cur : F) (bools : list AllocatedBit) : LC F :=
    match bools with
    | [] => lc
    | b :: bools => bits_lc (lc_add_cv lc (coeff_from cur) (bit_var b)) (fadd cur cur) bools
    end.

  (** [unpack_fe]: boolean.rs:281-320 *)
  Definition unpack_fe (num : Num F) : CS F (list AllocatedBit) :=
    let values :=
      match n_value num with
      | Some value => map Some (fe_bits value)
      | None => repeat None 256
      end in
    bools <- mapM (fun value => namespace "bit i" (bit_alloc (req value))) values ;;
    enforce_zero (lc_sub_lc (bits_lc lc_zero fone bools) (n_lc one num)) ;;;
    ret bools.

  (** [lc]: boolean.rs:382-396.  The first argument is the [one] variable. *)
  Definition bool_lc (b : Boolean) (one : Var) (coeff : Coeff F) : LC F :=
    match b with
    | Constant c => if c then lc_add_cv lc_zero coeff one else lc_zero
    | Is v => lc_add_cv lc_zero coeff (bit_var v)
    | Not v => lc_sub_cv (lc_add_cv lc_zero coeff one) coeff (bit_var v)
    end.
  Local Notation lc1 b := (bool_lc b one COne).

  (** [enforce_equal]: boolean.rs:343-372 *)
  Definition bool_enforce_equal (a b : Boolean) : CS F unit :=
    match a, b with
    | Constant a, Constant b => if Bool.eqb a b then ret tt else fail Unsatisfiable
    | Constant true, a | a, Constant true => enforce_zero (lc_sub_v (lc1 a) one) ;;; ret tt
    | Constant false, a | a, Constant false => enforce_zero (lc1 a) ;;; ret tt
    | a, b => enforce_zero (lc_sub_lc (lc1 a) (lc1 b)) ;;; ret tt
    end.

  (** [xor]: boolean.rs:413-432.  The recursive call in the mixed case is on two
      [Is] operands and is unfolded. *)
  Definition bool_xor (a b : Boolean) : CS F Boolean :=
    match a, b with
    | Constant false, x | x, Constant false => ret x
    | Constant true, x | x, Constant true => ret (bool_not x)
    | Is is_, Not not_ | Not not_, Is is_ =>
        r <- (r <- bit_xor is_ not_ ;; ret (Is r)) ;; ret (bool_not r)
    | Is a, Is b | Not a, Not b => r <- bit_xor a b ;; ret (Is r)
    end.

  (** [and]: boolean.rs:435-461 *)
  Definition bool_and (a b : Boolean) : CS F Boolean :=
    match a, b with
    | Constant false, _ | _, Constant false => ret (Constant false)
    | Constant true, x | x, Constant true => ret x
    | Is is_, Not not_ | Not not_, Is is_ => r <- bit_and_not is_ not_ ;; ret (Is r)
    | Not a, Not b => r <- bit_nor a b ;; ret (Is r)
    | Is a, Is b => r <- bit_and a b ;; ret (Is r)
    end.

  (** [(a & b) ^ ((!a) & c)] and [(a & b) ^ (a & c) ^ (b & c)] on optional
      values: boolean.rs:474-480 and 603-609 *)
  Definition ch_bits (a b c : bool) : bool := xorb (a && b) (negb a && c).
  Definition maj_bits (a b c : bool) : bool := xorb (xorb (a && b) (a && c)) (b && c).
  Definition omap3 {A} (f : bool -> bool -> bool -> A) (a b c : option bool) : option A :=
    match a, b, c with Some a, Some b, Some c => Some (f a b c) | _, _, _ => None end.

  (** The gate at the end of [sha256_ch]: boolean.rs:545-590 *)
  Definition sha256_ch_gate (a b c : Boolean) (ch_value : option bool) : CS F Boolean :=
    '(ch, _) <- alloc "ch" (rbind (req ch_value) (fun v => Ok (fb v))) ;;
    '(d_var, e_var, f_var, _) <- multiply "sha256_ch"
      (rbind (req (bool_value a)) (fun a_val =>
       rbind (req (bool_value b)) (fun b_val =>
       rbind (req (bool_value c)) (fun c_val =>
       rbind (req ch_value) (fun ch_val =>
       Ok (fb a_val, fsub (fb b_val) (fb c_val), fsub (fb ch_val) (fb c_val))))))) ;;
    enforce_zero (lc_sub_v (lc1 a) d_var) ;;;
    enforce_zero (lc_sub_v (lc_sub_lc (lc1 b) (lc1 c)) e_var) ;;;
    enforce_zero (lc_sub_v (lc_sub_lc (lc_from ch) (lc1 c)) f_var) ;;;
    ret (Is (mkBit ch_value ch)).

  (** [sha256_ch]: boolean.rs:464-590; the match arms in source order *)
  Definition bool_sha256_ch (a b c : Boolean) : CS F Boolean :=
    let ch_value := omap3 ch_bits (bool_value a) (bool_value b) (bool_value c) in
    match a, b, c with
    | Constant _, Constant _, Constant _ => v <- unwrap ch_value ;; ret (Constant v)
    | Constant false, _, c => ret c
    | a, Constant false, c => bool_and (bool_not a) c
    | a, b, Constant false => bool_and a b
    | a, b, Constant true => r <- bool_and a (bool_not b) ;; ret (bool_not r)
    | a, Constant true, c => r <- bool_and (bool_not a) (bool_not c) ;; ret (bool_not r)
    | Constant true, _, _ => sha256_ch_gate a b c ch_value
    | _, _, _ => sha256_ch_gate a b c ch_value
    end.

  (** The gates at the end of [sha256_maj]: boolean.rs:661-726 *)
  Definition sha256_maj_gate (a b c : Boolean) (maj_value : option bool) : CS F Boolean :=
    '(maj, _) <- alloc "maj" (rbind (req maj_value) (fun v => Ok (fb v))) ;;
    bc <- namespace "b and c" (bool_and b c) ;;
    '(d_var, e_var, f_var, _) <- multiply "sha256_maj"
      (rbind (req (bool_value a)) (fun a_val =>
       rbind (req (bool_value b)) (fun b_val =>
       rbind (req (bool_value c)) (fun c_val =>
       rbind (req (bool_value bc)) (fun bc_val =>
       rbind (req maj_value) (fun maj_val =>
       Ok (fsub (fsub (fadd (fb bc_val) (fb bc_val)) (fb b_val)) (fb c_val),
           fb a_val, fsub (fb bc_val) (fb maj_val)))))))) ;;
    enforce_zero
      (lc_sub_v (lc_sub_lc (lc_sub_lc (lc_add_lc (lc1 bc) (lc1 bc)) (lc1 b)) (lc1 c)) d_var) ;;;
    enforce_zero (lc_sub_v (lc1 a) e_var) ;;;
    enforce_zero (lc_sub_v (lc_sub_v (lc1 bc) maj) f_var) ;;;
    ret (Is (mkBit maj_value maj)).

  (** [sha256_maj]: boolean.rs:593-726; the match arms in source order *)
  Definition bool_sha256_maj (a b c : Boolean) : CS F Boolean :=
    let maj_value := omap3 maj_bits (bool_value a) (bool_value b) (bool_value c) in
    match a, b, c with
    | Constant _, Constant _, Constant _ => v <- unwrap maj_value ;; ret (Constant v)
    | Constant false, b, c => bool_and b c
    | a, Constant false, c => bool_and a c
    | a, b, Constant false => bool_and a b
    | a, b, Constant true => r <- bool_and (bool_not a) (bool_not b) ;; ret (bool_not r)
    | a, Constant true, c => r <- bool_and (bool_not a) (bool_not c) ;; ret (bool_not r)
    | Constant true, b, c => r <- bool_and (bool_not b) (bool_not c) ;; ret (bool_not r)
    | _, _, _ => sha256_maj_gate a b c maj_value
    end.
End Boolean.
