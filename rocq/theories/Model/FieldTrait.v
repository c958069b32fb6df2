(** The [Field] trait of src/fields/mod.rs.

    [FieldOps] holds the operators a type provides; the trait's default methods
    ([pow], [pow_vartime], [batch_invert]) and the Tonelli-Shanks loop (the two
    [sqrt] bodies are textually identical) are functions of such a record. *)
From Coq Require Import ZArith List Bool.
Import ListNotations.
Open Scope Z_scope.

(** [[u64; 4]], little endian: the element representation (fp.rs:14-15) and the
    type of exponents (src/fields/mod.rs:70). *)
Record limbs := L4 { l0 : Z; l1 : Z; l2 : Z; l3 : Z }.

(** Operators required by the trait: src/fields/mod.rs:5-29, 56-66. *)
Record FieldOps := {
  FT :> Type;
  fzero : FT; fone : FT;
  fadd : FT -> FT -> FT; fsub : FT -> FT -> FT; fmul : FT -> FT -> FT;
  fneg : FT -> FT; fsquare : FT -> FT;
  feqb : FT -> FT -> bool       (* ConstantTimeEq / PartialEq *)
}.
Arguments fzero {_}. Arguments fone {_}.
Arguments fadd {_} _ _. Arguments fsub {_} _ _. Arguments fmul {_} _ _.
Arguments fneg {_} _. Arguments fsquare {_} _. Arguments feqb {_} _ _.

(** [conditional_select(a, b, choice)] returns [b] iff [choice] (fp.rs:59-68,
    crate subtle). *)
Definition select {A} (a b : A) (choice : bool) : A := if choice then b else a.

(** The iteration order of [for e in by.iter().rev() { for i in (0..64).rev() .. }]:
    limbs from most to least significant, bits 63..0 of each
    (src/fields/mod.rs:72-73). *)
Definition limb_bits_rev (e : Z) : list bool :=
  map (fun i => Z.land (Z.shiftr e (Z.of_nat i)) 1 =? 1) (rev (seq 0 64)).
Definition exp_bits_rev (by_ : limbs) : list bool :=
  limb_bits_rev (l3 by_) ++ limb_bits_rev (l2 by_) ++
  limb_bits_rev (l1 by_) ++ limb_bits_rev (l0 by_).

Section Default.
  Variable F : FieldOps.

  (** [is_zero]: fp.rs:421-423 *)
  Definition is_zero (a : F) : bool := feqb a fzero.

  (** [Field::pow]: src/fields/mod.rs:70-81 *)
  Definition pow (a : F) (by_ : limbs) : F :=
    fold_left (fun res bit =>
      let res := fsquare res in
      let tmp := fmul res a in
      select res tmp bit) (exp_bits_rev by_) fone.

  (** [Field::pow_vartime]: src/fields/mod.rs:89-101 *)
  Definition pow_vartime (a : F) (by_ : limbs) : F :=
    fold_left (fun res (bit : bool) =>
      let res := fsquare res in
      if bit then fmul res a else res) (exp_bits_rev by_) fone.

  (** [sqrt]: fp.rs:447-493.  Inner loop state: (tmp, z, k, j_less_than_v). *)
  Definition sqrt_inner (v : nat) (st : F * F * nat * bool) (j : nat)
    : F * F * nat * bool :=
    let '(tmp, z, k, jlt) := st in
    let tmp_is_one := feqb tmp fone in
    let squared := fsquare (select tmp z tmp_is_one) in
    let tmp' := select squared tmp tmp_is_one in
    let new_z := select z squared tmp_is_one in
    let jlt' := jlt && negb (Nat.eqb j v) in
    let k' := select j k tmp_is_one in
    let z' := select z new_z jlt' in
    (tmp', z', k', jlt').

  (** Outer loop state: (x, b, z, v); [for max_v in (1..=S).rev()],
      inner [for j in 2..max_v] (fp.rs:467-486). *)
  Definition sqrt_outer (st : F * F * F * nat) (max_v : nat) : F * F * F * nat :=
    let '(x, b, z, v) := st in
    let '(_, z, k, _) :=
      fold_left (sqrt_inner v) (seq 2 (max_v - 2)) (fsquare b, z, 1%nat, true) in
    let result := fmul x z in
    let x := select result x (feqb b fone) in
    let z := fsquare z in
    let b := fmul b z in
    (x, b, z, k).

  Definition sqrt_tonelli (s : nat) (root : F) (w_exp : limbs) (a : F) : option F :=
    let w := pow_vartime a w_exp in
    let x := fmul a w in
    let b := fmul x w in
    let '(x, _, _, _) := fold_left sqrt_outer (rev (seq 1 s)) (x, b, root, s) in
    if feqb (fmul x x) a then Some x else None.

  (** [batch_invert]: src/fields/mod.rs:110-131.  The first pass collects the
      running products ([tmp]); [None] models the [unwrap] panic of [invert].
      The second pass walks both vectors backwards. *)
  Fixpoint batch_fwd (v : list F) (acc : F) : list F * F :=
    match v with
    | [] => ([], acc)
    | p :: v =>
        let (tmp, acc') := batch_fwd v (select (fmul acc p) acc (is_zero p)) in
        (acc :: tmp, acc')
    end.
  Fixpoint batch_bwd (vt : list (F * F)) (acc : F) : list F :=
    match vt with
    | [] => []
    | (p, tmp) :: vt =>
        let skip := is_zero p in
        let tmp := fmul tmp acc in
        let acc := select (fmul acc p) acc skip in
        select tmp p skip :: batch_bwd vt acc
    end.
  Definition batch_invert (invert : F -> option F) (v : list F) : option (list F * F) :=
    let (tmp, acc) := batch_fwd v fone in
    match invert acc with
    | None => None
    | Some allinv =>
        Some (rev (batch_bwd (combine (rev v) (rev tmp)) allinv), allinv)
    end.
End Default.

(** The remaining associated constants and methods of the trait
    (src/fields/mod.rs:30-66, 103-105), on top of the operators. *)
Record Field := {
  fops :> FieldOps;
  f_S : nat;                          (* S *)
  f_ALPHA : fops;                     (* ALPHA *)
  f_RESCUE_ALPHA : Z;
  f_RESCUE_INVALPHA : limbs;
  f_BETA : fops;
  f_from_bool : bool -> fops;
  f_from_u64 : Z -> fops;
  f_from_u128 : Z -> fops;
  f_sqrt : fops -> option fops;
  f_invert : fops -> option fops;
  f_to_bytes : fops -> list Z;
  f_from_bytes : list Z -> option fops;
  f_get_lower_128 : fops -> Z
}.
Arguments f_ALPHA {_}. Arguments f_BETA {_}.
Arguments f_from_bool {_} _. Arguments f_from_u64 {_} _. Arguments f_from_u128 {_} _.
Arguments f_sqrt {_} _. Arguments f_invert {_} _. Arguments f_to_bytes {_} _.
Arguments f_from_bytes {_} _. Arguments f_get_lower_128 {_} _.
